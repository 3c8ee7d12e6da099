(** Which characters a line diff marks as inserted and removed, and which lines it shows
    inside a Change. *)
From Verif Require Import Base Changesets SpecDiff Lines SpecLines.
Local Open Scope Z_scope.

(** a diff character by character *)
Inductive mark := Same | Ins | Del.
Definition marked (m : mark) (s : list Z) : list (mark * Z) := map (pair m) s.
Definition expand (l : list (ditem Z)) : list (mark * Z) :=
  flat_map (fun i => match i with DText s => marked Same s | DChange a b => marked Ins a ++ marked Del b end) l.
(** the two texts *)
Definition new_text (e : list (mark * Z)) : list Z :=
  flat_map (fun p => match fst p with Del => [] | _ => [snd p] end) e.
Definition old_text (e : list (mark * Z)) : list Z :=
  flat_map (fun p => match fst p with Ins => [] | _ => [snd p] end) e.

(** The two tuples of a Change of a line diff side by side: what is inserted is a Change
    with nothing removed in the first, what is removed a Change with nothing inserted in
    the second, common strings are in both. *)
Inductive pairs : list litem -> list litem -> list (ditem Z) -> Prop :=
| pairs_nil : pairs [] [] []
| pairs_str s a b r : pairs a b r -> pairs (LStr s :: a) (LStr s :: b) (DText s :: r)
| pairs_change x y a b r : pairs a b r -> pairs (LChange x [] :: a) (LChange [] y :: b) (DChange x y :: r).
Inductive shown : list oitem -> list (ditem Z) -> Prop :=
| shown_nil : shown [] []
| shown_str s d r : shown d r -> shown (OStr s :: d) (DText s :: r)
| shown_change a b q d r : pairs a b q -> shown d r -> shown (OChange a b :: d) (q ++ r).

(** spaces and newlines *)
Definition blank_text (space : Z -> bool) (s : list Z) : Prop := Forall (fun c => space c = true \/ c = 10) s.
(** no whole line inside [e] is unchanged, blank lines apart *)
Definition no_idle_line (space : Z -> bool) (e : list (mark * Z)) : Prop :=
  forall x y z, e = x ++ marked Same y ++ z -> whole_lines (new_text x) -> whole_lines (old_text x) ->
    whole_lines y -> blank_text space y.
(** [e] has a change *)
Definition has_change (e : list (mark * Z)) : Prop := exists p, In p e /\ fst p <> Same.
Definition busy_item (space : Z -> bool) (i : oitem) : Prop :=
  match i with
  | OStr _ => True
  | OChange a b => exists q, pairs a b q /\ has_change (expand q) /\ no_idle_line space (expand q)
  end.
(** no Change with two empty sides *)
Definition real_changes (l : list (ditem Z)) : Prop := ~ In (DChange [] []) l.
