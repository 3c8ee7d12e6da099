(** How much a diff can miss: of a common subsequence of any length two tokens. *)
From Coq Require Import Lia.
From Verif Require Import Base Changesets SpecDiff SpecGreedy SpecMerge SpecEdits DiffGreedy.

(** every other token is one of 2, 5, 8, ..., the ones between them depend on [j] *)
Fixpoint every_other (j i n : nat) : list nat :=
  match n with 0 => [] | S n => 3 * i + 2 :: 3 * i + 2 + j :: every_other j (S i) n end.
Fixpoint common_part (i n : nat) : list nat :=
  match n with 0 => [] | S n => 3 * i + 2 :: common_part (S i) n end.

Lemma subseq_before (l a b : list nat) : subseq l b -> subseq l (a ++ b).
Proof. intros H. induction a as [|x a IH]; [exact H|]. apply sub_skip, IH. Qed.
Lemma common_part_in j i n l : subseq (common_part i n) (every_other j i n ++ l).
Proof. revert i; induction n as [|n IH]; intros i; cbn [common_part every_other app]; [constructor|]. apply sub_take, sub_skip, IH. Qed.
Lemma common_part_length i n : length (common_part i n) = n.
Proof. revert i; induction n as [|n IH]; intros i; cbn [common_part length]; [reflexivity|]. now rewrite IH. Qed.

Lemma every_other_in j i n x : In x (every_other j i n) -> exists k, i <= k /\ (x = 3 * k + 2 \/ x = 3 * k + 2 + j).
Proof.
  revert i; induction n as [|n IH]; intros i; cbn [every_other In]; [tauto|]. intros [<-|[<-|H]]; [exists i; lia..|].
  destruct (IH _ H) as (k & L & Q). exists k. lia.
Qed.
(** of two neighbours one is not a common token *)
Lemma every_other_pair j i n p a b q : every_other j i n = p ++ a :: b :: q -> exists k, a = 3 * k + 2 + j \/ b = 3 * k + 2 + j.
Proof.
  revert i p; induction n as [|n IH]; intros i p H; cbn [every_other] in H; [now destruct p|].
  destruct p as [|u [|v p]]; cbn [app] in H.
  - injection H as <- <- _. exists i. now right.
  - injection H as _ <- _. exists i. now left.
  - injection H as _ _ H. exact (IH _ _ H).
Qed.

Definition left_text n := [0; 1] ++ every_other 1 0 n.
Definition right_text n := every_other 2 0 n ++ [0; 1].

Lemma app_split {A} (a b p q : list A) : a ++ b = p ++ q -> (exists l, p = a ++ l /\ b = l ++ q) \/ (exists l, a = p ++ l /\ q = l ++ b).
Proof.
  revert p; induction a as [|x a IH]; intros p H; cbn in H.
  - left. exists p. now subst.
  - destruct p as [|y p]; cbn in H.
    + right. exists (x :: a). split; [reflexivity|now subst].
    + injection H as -> H. destruct (IH _ H) as [(l & -> & ->)|(l & -> & ->)]; [left|right]; exists l; now subst.
Qed.
Lemma right_pair n p a b q : right_text n = p ++ a :: b :: q -> 1 < a \/ (a = 0 /\ b = 1 /\ p = every_other 2 0 n).
Proof.
  unfold right_text. intros H. destruct (app_split _ _ _ _ H) as [(l & -> & Q)|(l & Q & R)].
  - destruct l as [|x [|y [|z l]]]; cbn in Q.
    + injection Q as <- <- _. right. now rewrite app_nil_r.
    + discriminate.
    + discriminate.
    + discriminate.
  - destruct l as [|x l]; cbn in R.
    + injection R as -> -> _. right. split; [reflexivity|split; [reflexivity|]]. now rewrite app_nil_r in Q.
    + injection R as -> _. left. destruct (every_other_in 2 0 n x) as (k & _ & K); [rewrite Q; apply in_or_app; right; now left|lia].
Qed.
Lemma right_in n x : In x (right_text n) -> forall k, x <> 3 * k + 3.
Proof. unfold right_text. rewrite in_app_iff. intros [H|[<-|[<-|[]]]] k; [|lia|lia]. destruct (every_other_in _ _ _ _ H) as (k' & _ & K). lia. Qed.
Lemma left_pair n p a b q : left_text n = p ++ a :: b :: q -> (a = 0 /\ b = 1) \/ a = 1 \/ exists k, a = 3 * k + 3 \/ b = 3 * k + 3.
Proof.
  unfold left_text. destruct p as [|x [|y p]]; cbn; intros H.
  - injection H as <- <- _. now left.
  - injection H as _ <- _. right; now left.
  - injection H as _ _ H. right; right. destruct (every_other_pair _ _ _ _ _ _ _ H) as (k & K). exists k. lia.
Qed.
Lemma common_pair n v : common_to (left_text n) (right_text n) v -> 2 <= length v -> v = [0; 1].
Proof.
  intros [(p & q & L) (p' & q' & R)] G. destruct v as [|a [|b v]]; [cbn in G; lia..|]. cbn [app] in L, R.
  assert (In a (right_text n) /\ In b (right_text n)) as [Ia Ib] by (rewrite R; split; apply in_or_app; right; cbn; auto).
  destruct (right_pair _ _ _ _ _ R) as [A|(-> & -> & Q)].
  - exfalso. destruct (left_pair _ _ _ _ _ L) as [[-> _]|[->|(k & [->| ->])]]; [lia|lia|exact (right_in _ _ Ia k eq_refl)|exact (right_in _ _ Ib k eq_refl)].
  - destruct v as [|c v]; [reflexivity|exfalso]. cbn [app] in R. change (0 :: 1 :: c :: v ++ q') with ([0] ++ 1 :: c :: v ++ q') in R.
    rewrite app_assoc in R. destruct (right_pair _ _ _ _ _ R) as [B|[B _]]; [lia|discriminate].
Qed.

Lemma poor_diff n : exists d, diff_token_sequences (left_text n) (right_text n) = Ok d /\ kept d = [0; 1].
Proof.
  eexists. split.
  - apply diff_greedy. refine (lcs_diff_some _ [] (every_other 1 0 n) _ (every_other 2 0 n) [] [0; 1] _ _ eq_refl eq_refl _ _ _ _ (lcs_diff_none _ _ _) (lcs_diff_none _ _ _)).
    + discriminate.
    + intros v C. destruct (Nat.le_gt_cases (length v) 2) as [L|L]; [exact L|]. rewrite (common_pair n v C) by lia. reflexivity.
    + intros v p q C L R. rewrite (common_pair n v C) in R by (rewrite L; cbn; lia).
      destruct (right_pair n p 0 1 q R) as [A|(_ & _ & ->)]; lia.
    + intros p q _. cbn. lia.
    + intros x [].
    + intros x _ [].
  - destruct n; reflexivity.
Qed.

Theorem much_missed : forall k, exists (o m : list nat) d l, diff_token_sequences o m = Ok d /\ subseq l o /\ subseq l m /\
  length (kept d) = 2 /\ length l = k.
Proof.
  intros k. destruct (poor_diff k) as (d & D & Kd). exists (left_text k), (right_text k), d, (common_part 0 k).
  split; [exact D|]. split; [unfold left_text; apply subseq_before; rewrite <- (app_nil_r (every_other 1 0 k)); apply common_part_in|].
  split; [apply common_part_in|]. rewrite Kd. split; [reflexivity|apply common_part_length].
Qed.
