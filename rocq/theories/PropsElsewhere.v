(** C134: harm done to some lines of versions stays there. *)
From Coq Require Import ZArith Lia.
From Verif Require Import Base Changesets Serialize Tokenizers SpecTokenizers Tree Versions SpecVersions SpecLine SpecLineage
  SpecElsewhere DbTree DbTreeProofs SpecDb VersionsInv DbVersions VersionsMore VersionsElsewhere PropsVersions PropsAlone.
Local Open Scope nat_scope.

Section Theorems.
Context {K : Type} {E : Teq K} {O : TeqOk K}.
Variable re_w : Z -> bool.
Variable tk : tkind.
Notation D := (dict_store K).
Notation C := (db_store K).
Notation M := (memory_tree K).
Notation T := (db_tree K).

(** C134: after [h], the contents of both stores are replaced by others that agree for the
    versions outside of some whole lines [X].  Then all versions outside of [X] can be had,
    those of [h] and those that are added from now on, every add away from [X] returns or
    raises what it would have, and what is stored outside of [X] is what would have been
    stored. *)
Theorem C134_stores : forall (X : K -> Prop) h g hs ds, tk <> KLine -> fresh tk (h ++ g) -> whole_lines h X -> Forall (away X) g ->
  NoDup (map fst hs) -> NoDup (map fst ds) ->
  let v := run re_w tk D D M v_empty h in
  (forall u, ~ X u -> dget hs u = dget (heads v) u) -> (forall u, ~ X u -> dget ds u = dget (diffs v) u) ->
  let w := run re_w tk D D M (@mkV K D D M hs ds (tree v)) g in let v' := run re_w tk D D M v_empty (h ++ g) in
  (forall t b base, In (t, b, base) (h ++ g) -> ~ X t -> get re_w tk D D M w t = Ok (Some b)) /\
  (forall t, ~ X t -> get re_w tk D D M w t = get re_w tk D D M v' t /\
     dget (heads w) t = dget (heads v') t /\ dget (diffs w) t = dget (diffs v') t) /\
  tree w = tree v' /\
  (forall a, fresh tk (h ++ g ++ [a]) -> away X a -> add_result re_w tk D D M w a = add_result re_w tk D D M v' a).
Proof. exact (elsewhere re_w tk D D M dict_law dict_law memory_law). Qed.
Theorem C134_stores_db : forall place1 place2 (X : K -> Prop) h g hs ds, tk <> KLine -> fresh tk (h ++ g) -> whole_lines h X -> Forall (away X) g ->
  NoDup (map fst hs) -> NoDup (map fst ds) ->
  let v := run re_w tk (C place1) (C place2) T v_empty h in
  (forall u, ~ X u -> select hs u = select (heads v) u) -> (forall u, ~ X u -> select ds u = select (diffs v) u) ->
  let w := run re_w tk (C place1) (C place2) T (@mkV K (C place1) (C place2) T hs ds (tree v)) g in
  let v' := run re_w tk (C place1) (C place2) T v_empty (h ++ g) in
  (forall t b base, In (t, b, base) (h ++ g) -> ~ X t -> get re_w tk (C place1) (C place2) T w t = Ok (Some b)) /\
  (forall t, ~ X t -> get re_w tk (C place1) (C place2) T w t = get re_w tk (C place1) (C place2) T v' t /\
     select (heads w) t = select (heads v') t /\ select (diffs w) t = select (diffs v') t) /\
  tree w = tree v' /\
  (forall a, fresh tk (h ++ g ++ [a]) -> away X a ->
     add_result re_w tk (C place1) (C place2) T w a = add_result re_w tk (C place1) (C place2) T v' a).
Proof. exact (fun p1 p2 => elsewhere re_w tk (C p1) (C p2) T (db_store_law p1) (db_store_law p2) db_law). Qed.
End Theorems.

(** [X] must be whole lines: a version depends on those made from it.  Here only the entry of
    the head 2 is lost, and 1, made before it, with it. *)
Theorem C134_lines_refuted : exists (X : nat -> Prop) h hs ds, fresh KNull h /\ NoDup (map fst hs) /\ NoDup (map fst ds) /\
  let v := run0 KNull h in
  (forall u, ~ X u -> dget hs u = dget (heads v) u) /\ (forall u, ~ X u -> dget ds u = dget (diffs v) u) /\
  exists t b base, In (t, b, base) h /\ ~ X t /\ get0 KNull (@mkV nat (dict_store nat) (dict_store nat) (memory_tree nat) hs ds (tree v)) t = Err KeyError.
Proof.
  exists (fun u => u = 2), [(1, [65]%Z, None); (2, [66]%Z, Some 1)], [], (diffs (run0 KNull [(1, [65]%Z, None); (2, [66]%Z, Some 1)])).
  split; [cbn [app]; split; [repeat constructor; cbn; intuition lia|repeat constructor; cbn; try discriminate; lia]|].
  split; [constructor|]. split; [repeat constructor; intros []|]. cbn zeta. split; [|split; [reflexivity|]].
  - intros u Hu. replace (heads (run0 KNull [(1, [65]%Z, None); (2, [66]%Z, Some 1)])) with [(2, [66]%Z)] by (vm_compute; reflexivity).
    cbn. destruct u as [|[|[|u]]]; try reflexivity. now destruct Hu.
  - exists 1, [65]%Z, None. split; [now left|]. split; [discriminate|vm_compute; reflexivity].
Qed.

(** * Examples *)
(** the even line of [in_turns] of PropsAlone loses its head and its diffs; the odd line goes on *)
Definition even (t : nat) : Prop := Nat.even t = true.
Definition odd_more : list (adding nat) := [(11, [67; 68]%Z, Some 9); (13, [68]%Z, Some 11); (15, [77]%Z, None)].
Definition odd_only (d : dict nat (list Z)) : dict nat (list Z) := filter (fun e => Nat.odd (fst e)) d.
Example C134_example_valid : valid KNull (in_turns ++ odd_more).
Proof. cbn [app in_turns odd_more]. valid_tac; any_head. Qed.
Example C134_example : whole_lines in_turns even /\ Forall (away even) odd_more /\
  (let v := kept in_turns in
   (forall u, ~ even u -> dget (odd_only (heads v)) u = dget (heads v) u) /\
   (forall u, ~ even u -> dget (odd_only (diffs v)) u = dget (diffs v) u)).
Proof.
  split; [|split].
  - intros x y B. apply (VersionsOrder.valid_built KNull) in B; [|exact (proj1 C133_order_example)]. destruct B as [b B].
    unfold even. cbn in B. repeat (destruct B as [B|B]; [try discriminate; injection B as <- _ <-; reflexivity|]). destruct B.
  - repeat constructor; unfold away, even; cbn; try discriminate; intros x Q; try discriminate; injection Q as <-; discriminate.
  - assert (P : forall (d : dict nat (list Z)) u, ~ even u -> dget (odd_only d) u = dget d u).
    { intros d u Hu. unfold odd_only. induction d as [|[k b] d IH]; [reflexivity|]. cbn [filter fst]. destruct (Nat.odd k) eqn:Q.
      - cbn [dget]. now rewrite IH.
      - rewrite IH. cbn [dget]. destruct (teq_spec k u) as [->|]; [|reflexivity]. exfalso. apply Hu. unfold even. now rewrite <- Nat.negb_odd, Q. }
    split; intros u; apply P.
Qed.
Example C134_example_gets : let v := kept in_turns in
  let w' := fold_left (add_state0 KNull) odd_more (@mkV nat (dict_store nat) (dict_store nat) (memory_tree nat) (odd_only (heads v)) (odd_only (diffs v)) (tree v)) in
  map (get0 KNull w') [1; 3; 9; 13; 2; 8] =
    [Ok (Some [65]%Z); Ok (Some [65; 66]%Z); Ok (Some [67]%Z); Ok (Some [68]%Z); Err KeyError; Err KeyError].
Proof. vm_compute. reflexivity. Qed.

Print Assumptions C134_stores.
Print Assumptions C134_stores_db.
Print Assumptions C134_lines_refuted.
