(** Theorem C119: [find_lcs_multiple] with other strings, and beside [find_lcs]. *)
From Coq Require Import Lia.
From Verif Require Import Base SpecSeq SpecMulti Automaton Multi MultiLaws.

Section Theorems.
Context {T : Type} {E : Teq T} {O : TeqOk T}.

(** C119, what holds: the length does not depend on the order of the strings or on how
    often they are given, nor do the positions if there is only one longest common word.
    What is missing: positions when there are several, see [C119_order_refuted]. *)
Theorem C119_order_partial : forall (ss ss' : list (list T)) ps l ps' l', (forall s, In s ss <-> In s ss') ->
  find_lcs_multi ss = Some (ps, Some l) -> find_lcs_multi ss' = Some (ps', Some l') ->
  l = l' /\
  (only_one ss l -> forall k k' s p p', nth_error ss k = Some s -> nth_error ss' k' = Some s ->
     nth_error ps k = Some p -> nth_error ps' k' = Some p' -> p = p').
Proof. exact multi_order. Qed.
(** For two strings the length is that of find_lcs, and so are the positions if there is
    only one longest common word; otherwise see [C119_two_refuted]. *)
Theorem C119_two_partial : forall (a b : list T) pa pb l, find_lcs a b = Some (pa, pb, l) -> exists ps,
  find_lcs_multi [a; b] = Some (ps, Some l) /\ (only_one [a; b] l -> ps = [pa; pb]).
Proof. exact multi_two. Qed.
(** With more strings the length is not larger. *)
Theorem C119_fewer : forall (ss ss' : list (list T)) ps l ps' l', incl ss' ss ->
  find_lcs_multi ss = Some (ps, Some l) -> find_lcs_multi ss' = Some (ps', Some l') -> l <= l'.
Proof. exact multi_fewer. Qed.
End Theorems.

(** In 1 2 and 2 1 the word 2 is found, in 2 1 and 1 2 the word 1. *)
Theorem C119_order_refuted : exists (a b : list nat) pa pb l pa' pb',
  find_lcs_multi [a; b] = Some ([pa; pb], Some l) /\ find_lcs_multi [b; a] = Some ([pb'; pa'], Some l) /\
  pa <> pa' /\ pb <> pb'.
Proof. exists [1; 2], [2; 1], 1, 0, 1, 0, 1. repeat split; try (vm_compute; reflexivity); discriminate. Qed.
(** In 1 2 and 1 3 2 find_lcs finds 1 and find_lcs_multiple 2. *)
Theorem C119_two_refuted : exists (a b : list nat) pa pb l pa' pb',
  find_lcs a b = Some (pa, pb, l) /\ find_lcs_multi [a; b] = Some ([pa'; pb'], Some l) /\ pa <> pa' /\ pb <> pb'.
Proof. exists [1; 2], [1; 3; 2], 0, 0, 1, 1, 2. repeat split; try (vm_compute; reflexivity); discriminate. Qed.

Print Assumptions C119_order_partial.
Print Assumptions C119_two_partial.
Print Assumptions C119_fewer.
Print Assumptions C119_order_refuted.
Print Assumptions C119_two_refuted.

(** * Examples *)
(** 2 3 4 is the only longest common word *)
Example C119_example : let ss := [[1;2;3;4]; [9;2;3;4]; [2;3;7;2;3;4]] in
  find_lcs_multi ss = Some ([1;1;3], Some 3) /\ only_one ss 3 /\
  find_lcs_multi [[2;3;7;2;3;4]; [1;2;3;4]; [9;2;3;4]; [1;2;3;4]] = Some ([3;1;1;1], Some 3) /\
  find_lcs_multi [[1;2;3;4]; [9;2;3;4]] = Some ([1;1], Some 3) /\ find_lcs [1;2;3;4] [9;2;3;4] = Some (1, 1, 3).
Proof.
  cbv zeta. split; [vm_compute; reflexivity|]. split; [|repeat split; vm_compute; reflexivity].
  assert (H : forall w, in_all [[1;2;3;4]; [9;2;3;4]; [2;3;7;2;3;4]] w -> length w = 3 -> w = [2;3;4]).
  { intros w A L. destruct (A _ (or_introl eq_refl)) as [p [P1 P2]].
    destruct (A _ (or_intror (or_introl eq_refl))) as [q [Q1 Q2]]. rewrite L in *. cbn [length] in *.
    destruct p as [|[|p]]; [|now symmetry|lia]. destruct q as [|[|q]]; [|now symmetry|lia].
    rewrite <- Q2 in P2. discriminate. }
  intros w w' A A' L L'. now rewrite (H w A L), (H w' A' L').
Qed.
