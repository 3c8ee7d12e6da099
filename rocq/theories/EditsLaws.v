(** Diffs read backwards (C84) and how much a diff keeps (C85). *)
From Coq Require Import Lia.
From Verif Require Import Base Changesets SpecDiff Merge SpecMerge SpecEdits DiffProofs EditsProofs.
Local Open Scope nat_scope.

Section Laws.
Context {T : Type} {E : Teq T} {O : TeqOk T}.
Implicit Types s : list (ditem T).

Lemma swap_kept s : kept (swap_sides s) = kept s.
Proof. induction s as [|[t|a b] s IH]; [reflexivity| |]; unfold kept, taken, inserted, diff_before, diff_after, swap_sides in *; cbn [map flat_map]; now rewrite IH. Qed.
Lemma swap_inserted s : inserted (swap_sides s) = taken s.
Proof. induction s as [|[t|a b] s IH]; [reflexivity| |]; unfold kept, taken, inserted, diff_before, diff_after, swap_sides in *; cbn [map flat_map]; now rewrite IH. Qed.
Lemma swap_taken s : taken (swap_sides s) = inserted s.
Proof. induction s as [|[t|a b] s IH]; [reflexivity| |]; unfold kept, taken, inserted, diff_before, diff_after, swap_sides in *; cbn [map flat_map]; now rewrite IH. Qed.
Lemma swap_before s : diff_before (swap_sides s) = diff_after s.
Proof. induction s as [|[t|a b] s IH]; [reflexivity| |]; unfold kept, taken, inserted, diff_before, diff_after, swap_sides in *; cbn [map flat_map]; now rewrite IH. Qed.
Lemma swap_after s : diff_after (swap_sides s) = diff_before s.
Proof. induction s as [|[t|a b] s IH]; [reflexivity| |]; unfold kept, taken, inserted, diff_before, diff_after, swap_sides in *; cbn [map flat_map]; now rewrite IH. Qed.
Lemma swap_normal s : normal_diff s -> normal_diff (swap_sides s).
Proof.
  intros [A F]. split.
  - intros k x y X Y. unfold swap_sides in *. rewrite nth_error_map in X, Y.
    destruct (nth_error s k) as [x'|] eqn:X'; [|discriminate]. destruct (nth_error s (S k)) as [y'|] eqn:Y'; [|discriminate].
    cbn in X, Y. injection X as <-. injection Y as <-.
    destruct (A k x' y' X' Y') as [[[t ->] (a & b & ->)]|[(a & b & ->) [t ->]]]; [left|right]; split; unfold is_text, is_change; eauto.
  - apply Forall_forall. intros i I. apply in_map_iff in I as (j & <- & J). rewrite Forall_forall in F. specialize (F j J).
    destruct j as [t|a b]; [exact F|]. cbn in *. destruct F as [F1 F2]. split; [tauto|]. intros x X Y. now apply (F2 x).
Qed.
Theorem diff_backwards s : distinct_edits s -> diff_token_sequences (diff_after s) (diff_before s) = Ok (swap_sides s).
Proof.
  intros (N & K & I & R). rewrite <- (swap_before s), <- (swap_after s). apply diff_finds_edits.
  split; [now apply swap_normal|]. rewrite swap_kept, swap_inserted, swap_taken, swap_before, swap_after.
  split; [exact K|]. split; assumption.
Qed.

Lemma subseq_in (l r : list T) : subseq l r -> forall x, In x l -> In x r.
Proof. induction 1 as [r|y a r _ IH|y a r _ IH]; intros x I; [destruct I| |right; auto]. destruct I as [<-|I]; [now left|right; auto]. Qed.
Lemma subseq_length (l r : list T) : subseq l r -> length l <= length r.
Proof. induction 1; cbn; lia. Qed.
Lemma subseq_app (l r1 r2 : list T) : subseq l (r1 ++ r2) -> exists l1 l2, l = l1 ++ l2 /\ subseq l1 r1 /\ subseq l2 r2.
Proof.
  revert l; induction r1 as [|x r1 IH]; intros l H; cbn in H; [exists [], l; repeat split; [constructor|exact H]|].
  inversion H as [|? a ? H'|? a ? H']; subst.
  - exists [], []. repeat split; constructor.
  - destruct (IH _ H') as (l1 & l2 & -> & S1 & S2). exists (x :: l1), l2. repeat split; [now constructor|exact S2].
  - destruct (IH _ H') as (l1 & l2 & -> & S1 & S2). exists l1, l2. repeat split; [now constructor|exact S2].
Qed.
Lemma no_more_before s : forall l, subseq l (diff_before s) -> disjoint (taken s) l -> length l <= length (kept s).
Proof.
  induction s as [|[t|a b] s IH]; intros l H D; [apply subseq_length in H; exact H| |];
    cbn [diff_before flat_map kept taken app] in *; fold (diff_before s) (kept s) (taken s) in *;
    destruct (subseq_app _ _ _ H) as (l1 & l2 & -> & S1 & S2).
  - rewrite !app_length. apply subseq_length in S1. specialize (IH l2 S2). cut (disjoint (taken s) l2); [intros X; specialize (IH X); lia|].
    intros x X Y. apply (D x X). apply in_or_app; now right.
  - destruct l1 as [|x l1].
    + cbn [app] in *. apply IH; [exact S2|]. intros x X Y. apply (D x); [apply in_or_app; now right|exact Y].
    + destruct (D x); [|now left]. apply in_or_app; left. apply (subseq_in _ _ S1). now left.
Qed.
Theorem keeps_most (o m : list T) d : diff_token_sequences o m = Ok d ->
  disjoint (taken d) m \/ disjoint (inserted d) o ->
  forall l, subseq l o -> subseq l m -> length l <= length (kept d).
Proof.
  intros H C l So Sm. destruct (diff_accounts o m) as (d' & H' & B & A).
  assert (d' = d) by congruence; subst d'. destruct C as [C|C].
  - apply no_more_before; [now rewrite B|]. intros x X Y. apply (C x X). now apply (subseq_in _ _ Sm).
  - rewrite <- swap_kept. apply no_more_before; [now rewrite swap_before, A|].
    rewrite swap_taken. intros x X Y. apply (C x X). now apply (subseq_in _ _ So).
Qed.
End Laws.
