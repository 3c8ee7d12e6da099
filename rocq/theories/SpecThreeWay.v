(** What a three-way merge is, in terms of the two diffs of the branches against the
    parent.  A diff item is [DText t] (kept) or [DChange i r] (insert [i], then remove
    [r]). *)
From Verif Require Import Base Changesets SpecDiff.

Section ThreeWay.
Context {T : Type}.

(** [step kept d s x d']: the next part of the diff [d] turns the parent tokens [s] into
    [x] and leaves [d'].  [kept] tells that it only keeps tokens. *)
Inductive step : bool -> list (ditem T) -> list T -> list T -> list (ditem T) -> Prop :=
| stay d : step true d [] [] d
| keep_all a d : step true (DText a :: d) a a d
| keep_part a b d : step true (DText (a ++ b) :: d) a a (DText b :: d)
| edit_all i a d : step false (DChange i a :: d) a i d
| edit_part i a b d : step false (DChange i (a ++ b) :: d) a i (DChange [] b :: d).

(** A region in which no parent token is kept by both branches; [x] and [y] are what the
    branches make of it.  The flag tells that both change the same token or both insert at
    the same place somewhere in the region. *)
Inductive region : bool -> list (ditem T) -> list (ditem T) -> list T -> list T ->
    list (ditem T) -> list (ditem T) -> Prop :=
| region_nil d0 d1 : region false d0 d1 [] [] d0 d1
| region_step k0 k1 c s x y xs ys d0 d0' d0'' d1 d1' d1'' :
    step k0 d0 s x d0' -> step k1 d1 s y d1' -> k0 = false \/ k1 = false ->
    region c d0' d1' xs ys d0'' d1'' -> region c d0 d1 (x ++ xs) (y ++ ys) d0'' d1''
| region_clash c s x y xs ys d0 d0' d0'' d1 d1' d1'' :
    step false d0 s x d0' -> step false d1 s y d1' -> s <> [] \/ (x <> [] /\ y <> []) ->
    region c d0' d1' xs ys d0'' d1'' -> region true d0 d1 (x ++ xs) (y ++ ys) d0'' d1''.
(** one branch is in the middle of a removal where the other starts a change *)
Definition over (d0 d1 : list (ditem T)) : Prop :=
  exists i0 r0 d0' i1 r1 d1', d0 = DChange i0 r0 :: d0' /\ d1 = DChange i1 r1 :: d1' /\
    ((i0 = [] /\ r0 <> []) \/ (i1 = [] /\ r1 <> [])).

(** A merge goes through the parent once.  Where a branch keeps the parent, the merge
    takes what the other branch has.  In a region where the changes of the branches touch
    the same tokens or the same place the merge shows the text of both branches: its items
    are texts common to both and conflicts, with the first branch on the first side and the
    second branch on the second. *)
Inductive three_way : list (ditem T) -> list (ditem T) -> list (ditem T) -> Prop :=
| tw_end : three_way [] [] []
| tw_left k s y d0 d0' d1 d1' r : step true d0 s s d0' -> step k d1 s y d1' ->
    three_way d0' d1' r -> three_way d0 d1 (DText y :: r)
| tw_right k s x d0 d0' d1 d1' r : step k d0 s x d0' -> step true d1 s s d1' ->
    three_way d0' d1' r -> three_way d0 d1 (DText x :: r)
| tw_region c x y m d0 d0' d1 d1' r : region c d0 d1 x y d0' d1' -> c = true \/ over d0' d1' ->
    diff_after m = x -> diff_before m = y ->
    three_way d0' d1' r -> three_way d0 d1 (m ++ r).

(** the same items with neighbours of the same kind joined and empty items dropped *)
Inductive glue : list (ditem T) -> list (ditem T) -> Prop :=
| glue_nil : glue [] []
| glue_keep i l r : glue l r -> glue (i :: l) (i :: r)
| glue_texts a b l r : glue (DText (a ++ b) :: l) r -> glue (DText a :: DText b :: l) r
| glue_changes a b a' b' l r : glue (DChange (a ++ a') (b ++ b') :: l) r ->
    glue (DChange a b :: DChange a' b' :: l) r
| glue_text l r : glue l r -> glue (DText [] :: l) r
| glue_change l r : glue l r -> glue (DChange [] [] :: l) r.

(** the tokens shown as merged *)
Definition plain (r : list (ditem T)) : list T :=
  flat_map (fun i => match i with DText t => t | DChange _ _ => [] end) r.
End ThreeWay.
