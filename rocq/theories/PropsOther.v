(** Theorem C128: patches applied to texts they were not made from. *)
From Verif Require Import Base SpecDiff Changesets SpecOther OtherProofs.

Section Theorems.
Context {T : Type} {E : Teq T} {O : TeqOk T}.

(** C128: applied to a text that is at least as long, a patch makes its edits at the same
    places; what it keeps is kept as it is in that text, and what is beyond the length of
    its own text is dropped. *)
Theorem C128_forward : forall o m v : list T, length o <= length v -> exists c d d',
  find_changeset o m = Ok c /\ diff_token_sequences o m = Ok d /\ Forall2 carried d d' /\
  diff_before d' = firstn (length o) v /\
  apply_forward (as_change_stream c) v = diff_after d' /\ old_apply_forward c v = diff_after d'.
Proof. exact other_forward. Qed.
Theorem C128_reverse : forall o m v : list T, length m <= length v -> exists c d d',
  find_changeset o m = Ok c /\ diff_token_sequences o m = Ok d /\ Forall2 carried_back d d' /\
  diff_after d' = firstn (length m) v /\
  apply_reverse (as_change_stream c) v = diff_before d' /\ old_apply_reverse c v = diff_before d'.
Proof. exact other_reverse. Qed.
(** It gives what it gives for its own text exactly when the two texts agree wherever the
    patch keeps something. *)
Theorem C128_forward_exactly : forall o m v : list T, length o <= length v -> exists c d d',
  find_changeset o m = Ok c /\ diff_token_sequences o m = Ok d /\ Forall2 carried d d' /\
  diff_before d' = firstn (length o) v /\
  (apply_forward (as_change_stream c) v = m <-> Forall2 keeps d d').
Proof. exact other_forward_exactly. Qed.
Theorem C128_reverse_exactly : forall o m v : list T, length m <= length v -> exists c d d',
  find_changeset o m = Ok c /\ diff_token_sequences o m = Ok d /\ Forall2 carried_back d d' /\
  diff_after d' = firstn (length m) v /\
  (apply_reverse (as_change_stream c) v = o <-> Forall2 keeps d d').
Proof. exact other_reverse_exactly. Qed.
End Theorems.
Print Assumptions C128_forward.
Print Assumptions C128_reverse.
Print Assumptions C128_forward_exactly.
Print Assumptions C128_reverse_exactly.

(** 1 2 3 4 5 with 3 replaced by 9, on 1 7 3 4 5 (a kept token differs), on 1 2 8 4 5 (only
    the removed token differs) and on a longer text *)
Example C128_example : match find_changeset [1;2;3;4;5] [1;2;9;4;5] with
  | Ok c => map (apply_forward (as_change_stream c)) [[1;7;3;4;5]; [1;2;8;4;5]; [1;2;3;4;5;6]] =
              [[1;7;9;4;5]; [1;2;9;4;5]; [1;2;9;4;5]] /\
            apply_reverse (as_change_stream c) [1;7;9;4;5] = [1;7;3;4;5]
  | Err _ => False
  end.
Proof. vm_compute. split; reflexivity. Qed.
(** the edits that were carried over *)
Example C128_example_carried :
  diff_token_sequences [1;2;3;4;5] [1;2;9;4;5] = Ok [DText [1;2]; DChange [9] [3]; DText [4;5]] /\
  Forall2 carried [DText [1;2]; DChange [9] [3]; DText [4;5]] [DText [1;7]; DChange [9] [3]; DText [4;5]] /\
  ~ Forall2 keeps [DText [1;2]; DChange [9] [3]; DText [4;5]] [DText [1;7]; DChange [9] [3]; DText [4;5]].
Proof.
  split; [vm_compute; reflexivity|]. split; [repeat constructor|].
  intros H. inversion H as [|? ? ? ? K _]; subst. specialize (K _ eq_refl). discriminate.
Qed.
(** of a shorter text the patch keeps what is there, without an error *)
Example C128_example_shorter : match find_changeset [1;2;3;4;5] [1;2;9;4;5] with
  | Ok c => apply_forward (as_change_stream c) [1] = [1;9]
  | Err _ => False
  end.
Proof. vm_compute. reflexivity. Qed.
