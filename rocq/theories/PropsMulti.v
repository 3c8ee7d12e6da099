(** Theorems C07 and C08 ([find_lcs_multiple]). *)
From Verif Require Import Base SpecSeq Automaton AutomatonProofs Multi MultiProofs MultiRename.

(** C07: for tokens that are never equal to a Separator.  One position per string;
    the same word [w] of the reported length stands at each of them and at no earlier
    place of its string; no word common to all strings is longer. *)
Theorem C07_find_lcs_multiple : forall (T : Type) (E : Teq T) (O : TeqOk T) (ss : list (list T)),
  ss <> [] -> exists ps l w,
    find_lcs_multi ss = Some (ps, Some l) /\
    length ps = length ss /\ length w = l /\
    (forall k s p, nth_error ss k = Some s -> nth_error ps k = Some p ->
       occurs_at s w p /\ forall q, occurs_at s w q -> p <= q) /\
    (forall w', (forall s, In s ss -> exists p, occurs_at s w' p) -> length w' <= l).
Proof. exact @find_lcs_multi_ok. Qed.
Theorem C07_no_strings : forall (T : Type) (E : Teq T),
  find_lcs_multi (@nil (list T)) = Some ([], None).
Proof. exact (fun T E => eq_refl). Qed.

(** C08 is false: [Separator(0) == (0,)].  The word [(5,)] is common to the two
    sequences [(5,)] and [(5,), (0,)] but the answer is length 0. *)
Theorem C08_separators_refuted : exists (ss : list (list (list nat))) ps l w,
  find_lcs_tuples ss = Some (ps, Some l) /\
  (forall s, In s ss -> exists p, occurs_at s w p) /\ l < length w.
Proof.
  exists [[[5]]; [[5]; [0]]], [0; 0], 0, [[5]].
  split; [vm_compute; reflexivity|]; split; [|cbn; lia].
  intros s [<-|[<-|[]]]; exists 0; vm_compute; auto.
Qed.

(** What does hold: the answer is right as long as no token is the tuple [(i,)]
    with i the index of one of the strings. *)
Theorem C08_separators_partial : forall ss : list (list (list nat)),
  ss <> [] -> (forall s t i, In s ss -> In t s -> i < length ss -> t <> [i]) ->
  exists ps l w,
    find_lcs_tuples ss = Some (ps, Some l) /\
    length ps = length ss /\ length w = l /\
    (forall k s p, nth_error ss k = Some s -> nth_error ps k = Some p ->
       occurs_at s w p /\ forall q, occurs_at s w q -> p <= q) /\
    (forall w', (forall s, In s ss -> exists p, occurs_at s w' p) -> length w' <= l).
Proof.
  exact (fun ss Hne Hss => eq_ind_r (fun r => exists ps l w, r = Some (ps, Some l) /\ _)
           (find_lcs_multi_ok ss Hne) (tuples_as_tokens ss Hss)).
Qed.

Print Assumptions C07_find_lcs_multiple.
Print Assumptions C07_no_strings.
Print Assumptions C08_separators_refuted.
Print Assumptions C08_separators_partial.

Example C07_example : find_lcs_multi [[1;2;3;4];[9;2;3;4];[2;3;7;2;3;4]] = Some ([1;1;3], Some 3).
Proof. vm_compute; reflexivity. Qed.
Example C07_example_empty : find_lcs_multi [[1;2];[]] = Some ([0;0], Some 0).
Proof. vm_compute; reflexivity. Qed.
Example C07_example_one : find_lcs_multi [[1;2;1]] = Some ([0], Some 3).
Proof. vm_compute; reflexivity. Qed.
(** tuples such as (1,2) or (7,) are harmless among two strings *)
Example C08_example : find_lcs_tuples [[[1;2];[7]];[[7];[1;2];[7]]] = Some ([0;1], Some 2).
Proof. vm_compute; reflexivity. Qed.
