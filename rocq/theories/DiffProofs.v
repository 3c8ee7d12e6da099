(** The diff theorems in the form in which they are published. *)
From Verif Require Import Base SpecSeq SpecDiff Changesets ChangesetsProofs DiffLaws.
Section DiffProofs.
Context {T : Type} {E : Teq T} {O : TeqOk T}.
Theorem forward_patch (o m : list T) : exists c,
  find_changeset o m = Ok c /\
  apply_forward (as_change_stream c) o = m /\
  apply (strip_forward (as_change_stream c)) o = m /\
  old_apply_forward c o = m.
Proof.
  destruct (find_changeset_ok o m) as [c [H G]]; exists c; split; [exact H|].
  destruct (good_forward _ _ _ _ _ _ _ G) as [H1 H2]; auto; rewrite seg_all in *; auto.
Qed.
Theorem reverse_patch (o m : list T) : exists c,
  find_changeset o m = Ok c /\
  apply_reverse (as_change_stream c) m = o /\
  apply (strip_reverse (as_change_stream c)) m = o /\
  old_apply_reverse c m = o.
Proof.
  destruct (find_changeset_ok o m) as [c [H G]]; exists c; split; [exact H|].
  destruct (good_reverse _ _ _ _ _ _ _ G) as [H1 H2]; auto; rewrite seg_all in *; auto.
Qed.
Theorem diff_accounts (o m : list T) : exists d,
  diff_token_sequences o m = Ok d /\ diff_before d = o /\ diff_after d = m.
Proof.
  unfold diff_token_sequences; destruct (find_changeset_ok o m) as [c [-> G]]; cbn [bind].
  eexists; split; [reflexivity|].
  destruct (good_diff _ _ _ _ _ _ _ G) as [H1 H2]; auto; rewrite seg_all in *; auto.
Qed.
Theorem diff_normal (o m : list T) : exists d,
  diff_token_sequences o m = Ok d /\ normal_diff d.
Proof.
  unfold diff_token_sequences; destruct (find_changeset_ok o m) as [c [-> G]]; cbn [bind].
  eexists; split; [reflexivity|].
  apply (good_normal _ _ _ _ _ _ _ G); lia.
Qed.
Theorem depth_enough (o m : list T) limit :
  Nat.min (length o) (length m) < limit ->
  exists c, find_changeset_lim limit o m (0, None) (0, None) = Ok c /\
            diff_before (as_diff_stream o c) = o /\ diff_after (as_diff_stream o c) = m.
Proof.
  intros H; destruct (depth_bound o m limit H) as [c [Hc G]]; exists c; split; [exact Hc|].
  destruct (good_diff _ _ _ _ _ _ _ G) as [H1 H2]; auto; rewrite seg_all in *; auto.
Qed.
End DiffProofs.
