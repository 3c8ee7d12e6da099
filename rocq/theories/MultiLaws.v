(** [find_lcs_multiple] with other strings, and beside [find_lcs] (C119). *)
From Coq Require Import Lia.
From Verif Require Import Base SpecSeq SpecMulti Automaton AutomatonProofs AutomatonLcs Multi MultiProofs MultiRename.

Section Laws.
Context {T : Type} {E : Teq T} {O : TeqOk T}.
Implicit Types (ss : list (list T)) (w : list T).


Lemma multi_word ss ps l : find_lcs_multi ss = Some (ps, Some l) -> exists w,
  length ps = length ss /\ length w = l /\ in_all ss w /\
  (forall k s p, nth_error ss k = Some s -> nth_error ps k = Some p ->
     occurs_at s w p /\ forall q, occurs_at s w q -> p <= q) /\
  (forall w', in_all ss w' -> length w' <= l).
Proof.
  intros H. destruct ss as [|s0 ss]; [discriminate|].
  destruct (find_lcs_multi_ok (s0 :: ss)) as (ps' & l' & w & H' & L & Lw & P & M); [discriminate|].
  rewrite H in H'. injection H' as <- <-. exists w. split; [exact L|]. split; [exact Lw|]. split; [|split; assumption].
  intros s I. apply In_nth_error in I as [k Hk].
  destruct (nth_error ps k) as [p|] eqn:Hp; [exists p; now apply (P k)|].
  apply nth_error_None in Hp. assert (k < length (s0 :: ss)) by (apply nth_error_Some; congruence). lia.
Qed.
Theorem multi_fewer ss ss' ps l ps' l' : incl ss' ss ->
  find_lcs_multi ss = Some (ps, Some l) -> find_lcs_multi ss' = Some (ps', Some l') -> l <= l'.
Proof.
  intros I H H'. apply multi_word in H as (w & _ & <- & A & _). apply multi_word in H' as (_ & _ & _ & _ & _ & M).
  apply M. intros s Hs. apply A, I, Hs.
Qed.
Theorem multi_order ss ss' ps l ps' l' : (forall s, In s ss <-> In s ss') ->
  find_lcs_multi ss = Some (ps, Some l) -> find_lcs_multi ss' = Some (ps', Some l') ->
  l = l' /\
  (only_one ss l ->
   forall k k' s p p', nth_error ss k = Some s -> nth_error ss' k' = Some s ->
     nth_error ps k = Some p -> nth_error ps' k' = Some p' -> p = p').
Proof.
  intros S H H'. assert (l = l').
  { apply Nat.le_antisymm; [eapply (multi_fewer ss ss')|eapply (multi_fewer ss' ss)]; eauto; intros s Hs; now apply S. }
  split; [assumption|]. subst l'. intros U k k' s p p' Hk Hk' Hp Hp'.
  apply multi_word in H as (w & _ & Lw & A & P & _). apply multi_word in H' as (w' & _ & Lw' & A' & P' & _).
  assert (w = w') by (apply U; auto; intros x Hx; apply A', S, Hx). subst w'.
  destruct (P _ _ _ Hk Hp) as [O1 M1]. destruct (P' _ _ _ Hk' Hp') as [O2 M2].
  apply Nat.le_antisymm; auto.
Qed.
Lemma in_two (a b : list T) w pa pb : occurs_at a w pa -> occurs_at b w pb -> in_all [a; b] w.
Proof. intros A B s [<-|[<-|[]]]; eauto. Qed.
Theorem multi_two (a b : list T) pa pb l : find_lcs a b = Some (pa, pb, l) -> exists ps,
  find_lcs_multi [a; b] = Some (ps, Some l) /\
  (only_one [a; b] l -> ps = [pa; pb]).
Proof.
  intros H. apply find_lcs_iff in H as [[[R1 [R2 R3]] M] [_ [F1 F2]]].
  destruct (find_lcs_multi_ok [a; b]) as (ps & l' & w & H' & L & Lw & P & M'); [discriminate|].
  pose proof (multi_word _ _ _ H') as (w0 & _ & Lw0 & A & _ & _).
  assert (Oa : occurs_at a (slice a pa l) pa).
  { assert (Ls : length (slice a pa l) = l) by (unfold slice; rewrite firstn_length, skipn_length; lia).
    split; rewrite Ls; [exact R1|reflexivity]. }
  assert (Ob : occurs_at b (slice a pa l) pb).
  { assert (Ls : length (slice a pa l) = l) by (unfold slice; rewrite firstn_length, skipn_length; lia).
    split; rewrite Ls; [exact R2|now symmetry]. }
  assert (Ls : length (slice a pa l) = l) by (unfold slice; rewrite firstn_length, skipn_length; lia).
  assert (El : l' = l).
  { apply Nat.le_antisymm.
    - destruct (A a (or_introl eq_refl)) as [qa [Q1 Q2]]. destruct (A b (or_intror (or_introl eq_refl))) as [qb [Q3 Q4]].
      rewrite <- Lw0. apply (M qa qb). split; [exact Q1|]. split; [exact Q3|]. congruence.
    - rewrite <- Ls. apply M'. intros s Hs. exact (in_two _ _ _ _ _ Oa Ob s Hs). }
  rewrite El in H', Lw. exists ps. split; [exact H'|]. intros U.
  destruct ps as [|p1 [|p2 [|p3 ps]]]; try discriminate L.
  destruct (P 0 a p1 eq_refl eq_refl) as [X1 X2]. destruct (P 1 b p2 eq_refl eq_refl) as [Y1 Y2].
  assert (w = slice a pa l) by (apply U; auto; [exact (in_two _ _ _ _ _ X1 Y1)|exact (in_two _ _ _ _ _ Oa Ob)]). subst w.
  destruct X1 as [X1 X1']. destruct Y1 as [Y1 Y1']. rewrite Ls in *.
  assert (p2 = pb).
  { apply Nat.le_antisymm; [apply Y2; exact Ob|]. apply (F1 p1). split; [exact X1|]. split; [exact Y1|]. congruence. }
  subst p2. f_equal. apply Nat.le_antisymm; [apply X2; exact Oa|]. apply F2.
  split; [exact X1|]. split; [exact Y1|congruence].
Qed.
End Laws.
