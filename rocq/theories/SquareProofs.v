(** Any three corners of the square of edits give the fourth (C132). *)
From Coq Require Import Lia Permutation.
From Verif Require Import Base Changesets SpecDiff Merge SpecMerge SpecEdits EditsProofs EditsConflicts EditsOrder SpecSquare.

Section Square.
Context {T : Type} {E : Teq T} {O : TeqOk T}.
Implicit Types (l : list (piece T)) (d : list (ditem T)).

(** ** Glued texts *)
Lemma glue_maps (f : ditem T -> list T) : f (DText []) = [] -> (forall t u, f (DText (t ++ u)) = f (DText t) ++ f (DText u)) ->
  forall d, flat_map f (glued d) = flat_map f d.
Proof.
  intros F0 F1 d. induction d as [|i d IH]; [reflexivity|]. cbn [glued fold_right flat_map]. fold (glued d). rewrite <- IH.
  destruct i as [[|x t]|a b]; cbn [glue]; [now rewrite F0| |reflexivity].
  destruct (glued d) as [|[u|a b] r]; [reflexivity| |reflexivity]. cbn [flat_map]. now rewrite F1, app_assoc.
Qed.
Lemma glued_before d : diff_before (glued d) = diff_before d.
Proof. apply glue_maps; reflexivity. Qed.
Lemma glued_after d : diff_after (glued d) = diff_after d.
Proof. apply glue_maps; reflexivity. Qed.
Lemma glued_kept d : kept (glued d) = kept d.
Proof. apply glue_maps; reflexivity. Qed.
Lemma glued_inserted d : inserted (glued d) = inserted d.
Proof. apply glue_maps; reflexivity. Qed.
Lemma glued_taken d : taken (glued d) = taken d.
Proof. apply glue_maps; reflexivity. Qed.
Lemma glued_edits d : forall pos, edits pos (glued d) = edits pos d.
Proof.
  induction d as [|i d IH]; intros pos; [reflexivity|]. cbn [glued fold_right]. fold (glued d).
  destruct i as [[|x t]|a b]; cbn [glue edits length].
  - now rewrite Nat.add_0_r.
  - rewrite <- IH. destruct (glued d) as [|[u|a b] r]; [reflexivity| |reflexivity]. cbn [edits]. f_equal. cbn [length app]. rewrite app_length. lia.
  - now rewrite IH.
Qed.
Lemma glued_ok d : Forall (fun i => match i with DText _ => True | DChange a b => item_ok (DChange a b) end) d -> Forall item_ok (glued d).
Proof.
  induction 1 as [|i d H _ IH]; [constructor|]. cbn [glued fold_right]. fold (glued d).
  destruct i as [[|x t]|a b]; cbn [glue]; [exact IH| |now constructor].
  destruct (glued d) as [|[u|a b] r]; [repeat constructor; discriminate| |constructor; [discriminate|exact IH]].
  inversion IH; subst. constructor; [discriminate|assumption].
Qed.
Lemma glue_alternating t d : alternating d -> alternating (glue (DText t) d).
Proof.
  intros A. destruct t as [|x t]; [exact A|]. cbn [glue]. destruct d as [|[u|a b] r].
  - intros [|k] y z H1 H2; cbn in *; [discriminate|destruct k; discriminate].
  - intros [|k] y z H1 H2.
    + cbn in H1. injection H1 as <-. destruct (A 0 (DText u) z eq_refl H2) as [[_ H]|[[? [? H]] _]]; [left; split; [eexists; reflexivity|exact H]|discriminate].
    + exact (A (S k) y z H1 H2).
  - apply alternating_cons; [exact A|]. left. split; eexists; [reflexivity|eexists; reflexivity].
Qed.

(** ** Scripts of the pieces *)
Definition sel (x y : bool) (i : piece T) : ditem T :=
  match i with
  | Keep t => DText t
  | First a b => if x then DChange a b else DText b
  | Second a b => if y then DChange a b else DText b
  end.
Definition script_of x y l : list (ditem T) := glued (map (sel x y) l).
Lemma flat_map_map {A B C} (f : A -> B) (g : B -> list C) (l : list A) : flat_map g (map f l) = flat_map (fun i => g (f i)) l.
Proof. induction l as [|i l IH]; cbn; congruence. Qed.
Lemma script_before_of x y l : diff_before (script_of x y l) = neither l.
Proof.
  unfold script_of. rewrite glued_before. unfold diff_before, neither. rewrite flat_map_map. apply flat_map_in.
  intros [t|a b|a b] _; cbn; destruct x, y; reflexivity.
Qed.
Lemma script_after_of x y l : diff_after (script_of x y l) =
  match x, y with true, true => by_both l | true, false => by_first l | false, true => by_second l | false, false => neither l end.
Proof.
  unfold script_of. rewrite glued_after. unfold diff_after. rewrite flat_map_map.
  destruct x, y; apply flat_map_in; intros [t|a b|a b] _; reflexivity.
Qed.
Lemma edits_both l : forall pos e, In e (edits pos (map (sel true true) l)) <->
  In e (edits pos (map (sel true false) l)) \/ In e (edits pos (map (sel false true) l)).
Proof.
  induction l as [|[t|a b|a b] l IH]; intros pos e; cbn [map sel edits In]; [tauto|apply IH| |]; rewrite IH; cbn [In]; tauto.
Qed.

(** ** Tokens that are there once *)
Definition tokens_of (i : piece T) : list T := match i with Keep t => t | First a b | Second a b => a ++ b end.
Lemma nodup_parts {A B} (f g : A -> list B) (l : list A) : (forall i, exists u v, g i = u ++ f i ++ v) ->
  NoDup (flat_map g l) -> NoDup (flat_map f l) /\ incl (flat_map f l) (flat_map g l).
Proof.
  intros P. induction l as [|i l IH]; intros N; [split; [constructor|intros ? []]|]. cbn [flat_map] in *.
  destruct (IH (NoDup_app_r _ _ N)) as [I1 I2]. destruct (P i) as (u & v & Hg).
  assert (Hi : incl (f i) (g i)) by (rewrite Hg; intros z Hz; apply in_or_app; right; apply in_or_app; now left).
  split.
  - apply NoDup_app_intro; [|exact I1|].
    + apply NoDup_app_l in N. rewrite Hg in N. apply NoDup_app_r in N. now apply NoDup_app_l in N.
    + intros z Hz Hz'. apply Hi in Hz. apply I2 in Hz'. revert N Hz Hz'. generalize (g i) (flat_map g l). clear.
      intros a b N Ha Hb. induction a as [|c a IH]; [destruct Ha|]. cbn in N. inversion N as [|? ? N1 N2]; subst.
      destruct Ha as [->|Ha]; [apply N1, in_or_app; now right|now apply IH].
  - intros z Hz. apply in_app_or in Hz as [Hz|Hz]; apply in_or_app; [left; now apply Hi|right; now apply I2].
Qed.
Lemma nodup_same {A B} (g : A -> list B) (l : list A) i j z : NoDup (flat_map g l) -> In i l -> In j l ->
  In z (g i) -> In z (g j) -> i = j.
Proof.
  induction l as [|k l IH]; intros N Hi Hj Zi Zj; [destruct Hi|]. cbn [flat_map] in N.
  assert (X : forall k', In k' l -> In z (g k') -> In z (flat_map g l)) by (intros k' H1 H2; apply in_flat_map; eauto).
  assert (Y : In z (g k) -> ~ In z (flat_map g l)).
  { clear - N. induction (g k) as [|c a IH]; [intros []|]. cbn in N. inversion N as [|? ? N1 N2]; subst.
    intros [->|H] H'; [apply N1, in_or_app; now right|now apply IH]. }
  destruct Hi as [->|Hi], Hj as [->|Hj]; [reflexivity| | |apply IH; auto; now apply NoDup_app_r in N].
  - exfalso. now apply (Y Zi), (X j).
  - exfalso. now apply (Y Zj), (X i).
Qed.
Lemma nodup_one {A B} (g : A -> list B) (l : list A) i : NoDup (flat_map g l) -> In i l -> NoDup (g i).
Proof.
  induction l as [|k l IH]; intros N H; [destruct H|]. cbn [flat_map] in N. destruct H as [->|H].
  - now apply NoDup_app_l in N.
  - apply IH; [now apply NoDup_app_r in N|exact H].
Qed.
Lemma nodup_app_disjoint (a b : list T) : NoDup (a ++ b) -> disjoint a b.
Proof.
  intros N z Ha Hb. induction a as [|c a IH]; [destruct Ha|]. cbn in N. inversion N as [|? ? N1 N2]; subst.
  destruct Ha as [->|Ha]; [apply N1, in_or_app; now right|now apply IH].
Qed.

Lemma separate_tl i l : separate (i :: l) -> separate l.
Proof.
  intros (A & F & N). split; [|split].
  - intros k x y. exact (A (S k) x y).
  - now inversion F.
  - cbn [all_tokens flat_map] in N. now apply NoDup_app_r in N.
Qed.
Lemma script_keep x y t l : t <> [] -> exists u r, script_of x y (Keep t :: l) = DText u :: r.
Proof.
  intros H. unfold script_of. cbn [map sel glued fold_right]. fold (glued (map (sel x y) l)).
  destruct t as [|c t]; [contradiction|]. cbn [glue]. destruct (glued _) as [|[u|a b] r]; eauto.
Qed.
Lemma script_alternating x y l : separate l -> alternating (script_of x y l).
Proof.
  induction l as [|i l IH]; intros S; [intros k ? ? H; destruct k; discriminate|].
  specialize (IH (separate_tl _ _ S)).
  assert (X : forall a b, ~ is_keep i -> alternating (DChange a b :: script_of x y l)).
  { intros a b Hi. destruct l as [|j l].
    - intros [|k] ? ? H1 H2; cbn in *; [discriminate|destruct k; discriminate].
    - destruct S as (A & F & _). destruct (A 0 i j eq_refl eq_refl) as [H|H]; [contradiction|].
      destruct j as [t|? ?|? ?]; try destruct H. inversion F as [|? ? _ F']; subst. apply Forall_inv in F'.
      destruct (script_keep x y t l F') as (u & r & Hs). rewrite Hs in *. apply alternating_cons; [exact IH|].
      right. split; [eexists; eexists; reflexivity|eexists; reflexivity]. }
  unfold script_of in *. cbn [map glued fold_right]. fold (glued (map (sel x y) l)).
  destruct i as [t|a b|a b]; cbn [sel]; [now apply glue_alternating|destruct x|destruct y];
    first [now apply glue_alternating|now apply X].
Qed.
Lemma piece_disjoint l i a b : separate l -> In i l -> tokens_of i = a ++ b -> disjoint a b.
Proof.
  intros (_ & _ & N) Hi Ht. apply nodup_app_disjoint. rewrite <- Ht. now apply (nodup_one tokens_of l).
Qed.
Lemma script_normal_of x y l : separate l -> normal_diff (script_of x y l).
Proof.
  intros S. split; [now apply script_alternating|]. apply glued_ok. apply Forall_forall. intros z Hz.
  apply in_map_iff in Hz as (i & <- & Hi). pose proof S as (_ & F & _). rewrite Forall_forall in F. specialize (F i Hi).
  destruct i as [t|a b|a b]; cbn [sel]; [exact Logic.I|destruct x|destruct y]; try exact Logic.I;
    (split; [exact F|apply (piece_disjoint l _ _ _ S Hi eq_refl)]).
Qed.
Lemma script_distinct x y l : separate l -> distinct_edits (script_of x y l).
Proof.
  intros S. split; [now apply script_normal_of|]. pose proof S as (_ & _ & N).
  assert (Same : forall i j z, In i l -> In j l -> In z (tokens_of i) -> In z (tokens_of j) -> i = j) by (intros; eapply (nodup_same tokens_of); eauto).
  split; [|split].
  - unfold script_of. rewrite glued_kept. unfold kept. rewrite flat_map_map.
    apply (nodup_parts _ tokens_of l); [|exact N]. intros [t|a b|a b]; cbn [sel tokens_of].
    + exists [], []. now rewrite app_nil_r.
    + destruct x; [exists (a ++ b), []; now rewrite app_nil_r|exists a, []; now rewrite app_nil_r].
    + destruct y; [exists (a ++ b), []; now rewrite app_nil_r|exists a, []; now rewrite app_nil_r].
  - rewrite script_before_of. unfold script_of. rewrite glued_inserted. unfold inserted, neither. rewrite flat_map_map.
    intros z H1 H2. apply in_flat_map in H1 as (i & Hi & Zi). apply in_flat_map in H2 as (j & Hj & Zj).
    assert (Q : i = j).
    { apply (Same i j z Hi Hj).
      - destruct i; cbn in *; [destruct Zi|destruct x|destruct y]; try (now destruct Zi); apply in_or_app; now left.
      - destruct j; cbn in *; [exact Zj| |]; apply in_or_app; now right. }
    subst j. destruct i as [t|a b|a b]; cbn in *; [destruct Zi|destruct x|destruct y]; try (now destruct Zi);
      exact (piece_disjoint l _ _ _ S Hi eq_refl z Zi Zj).
  - unfold script_of. rewrite glued_taken, glued_after. unfold taken, diff_after. rewrite !flat_map_map.
    intros z H1 H2. apply in_flat_map in H1 as (i & Hi & Zi). apply in_flat_map in H2 as (j & Hj & Zj).
    assert (Q : i = j).
    { apply (Same i j z Hi Hj).
      - destruct i; cbn in *; [destruct Zi|destruct x|destruct y]; try (now destruct Zi); apply in_or_app; now right.
      - destruct j; cbn in *; [exact Zj|destruct x|destruct y]; apply in_or_app; auto. }
    subst j. destruct i as [t|a b|a b]; cbn in *; [destruct Zi|destruct x|destruct y]; try (now destruct Zi);
      exact (piece_disjoint l _ _ _ S Hi eq_refl z Zj Zi).
Qed.

(** ** Edits with something between them *)
Lemma gapped_members (es : list (edit T)) : forall n e e', gapped n es -> In e es -> In e' es -> apart_edits e e'.
Proof.
  induction es as [|x es IH]; intros n e e' G H H'; [destruct H|]. cbn in G. destruct G as [_ G].
  destruct H as [<-|H], H' as [<-|H'].
  - now left.
  - right; left. apply (gapped_in _ _ _ G) in H'. lia.
  - right; right. apply (gapped_in _ _ _ G) in H. lia.
  - now apply (IH _ e e' G).
Qed.
Lemma gapped_same (es : list (edit T)) : forall es' n m, gapped n es -> gapped m es' -> (forall e, In e es <-> In e es') -> es = es'.
Proof.
  induction es as [|x es IH]; intros [|y es'] n m G G' H.
  - reflexivity.
  - destruct (proj2 (H y) (or_introl eq_refl)).
  - destruct (proj1 (H x) (or_introl eq_refl)).
  - cbn in G, G'. destruct G as [G0 G], G' as [G0' G'].
    assert (Lo : forall (e f : edit T) r k, gapped (S (e_end e)) r -> In f r -> k = e_end e -> e_pos e < e_pos f).
    { intros e f r k Gr Hf _. apply (gapped_in _ _ _ Gr) in Hf. unfold e_end in Hf. lia. }
    assert (Q : x = y).
    { destruct (proj1 (H x) (or_introl eq_refl)) as [->|Hx]; [reflexivity|].
      destruct (proj2 (H y) (or_introl eq_refl)) as [->|Hy]; [reflexivity|].
      pose proof (Lo y x es' _ G' Hx eq_refl). pose proof (Lo x y es _ G Hy eq_refl). lia. }
    subst y. f_equal. apply (IH es' _ _ G G'). intros e. split; intros He.
    + destruct (proj1 (H e) (or_intror He)) as [->|X]; [|exact X]. pose proof (Lo e e es _ G He eq_refl). lia.
    + destruct (proj2 (H e) (or_intror He)) as [->|X]; [|exact X]. pose proof (Lo e e es' _ G' He eq_refl). lia.
Qed.

(** ** The square *)
Lemma square_turn k l : separate l -> merge_in_turn k (neither l) (by_first l) [by_second l] = Some (by_both l).
Proof.
  intros S. set (s1 := script_of true false l). set (s2 := script_of false true l). set (s12 := script_of true true l).
  assert (G : gapped 0 (edits 0 s12)) by (destruct (script_normal_of true true l S) as [A F]; now apply edits_gapped).
  assert (M : forall e, In e (edits 0 s12) <-> In e (edits 0 s1) \/ In e (edits 0 s2)).
  { intros e. unfold s1, s2, s12, script_of. rewrite !glued_edits. apply edits_both. }
  destruct (any_order k (neither l) [s1; s2]) as (s & Ds & Bs & Es & Ms).
  - discriminate.
  - intros s [<-|[<-|[]]]; (split; [now apply script_distinct|apply script_before_of]).
  - intros s s' e e' [<-|[<-|[]]] [<-|[<-|[]]] He He'; apply (gapped_members (edits 0 s12) 0); auto; apply M; auto.
  - assert (Q : edits 0 s = edits 0 s12).
    { destruct Ds as ((A & F) & _). destruct (edits_gapped s 0 A F) as [Gs _]. apply (gapped_same _ _ 0 0 Gs G).
      intros e. rewrite Es, M. split.
      - intros (s' & [<-|[<-|[]]] & H); auto.
      - intros [H|H]; [exists s1|exists s2]; cbn; auto. }
    assert (R : diff_after s = by_both l).
    { rewrite (after_union s Ds), Q, Bs. rewrite <- (script_before_of true true l). fold s12.
      rewrite <- (after_union s12); [|now apply script_distinct]. apply script_after_of. }
    specialize (Ms s1 [s2] ltac:(reflexivity)). rewrite R in Ms. cbn [map] in Ms.
    unfold s1, s2 in Ms. rewrite !script_after_of in Ms. exact Ms.
Qed.
Lemma square_merge k l : separate l -> merge_token_sequence k (neither l) (by_first l) (by_second l) = Ok [DText (by_both l)].
Proof.
  intros S. pose proof (square_turn k l S) as H. cbn [merge_in_turn] in H.
  destruct (merge_token_sequence k (neither l) (by_first l) (by_second l)) as [[|[m|a b] [|? ?]]|e]; try discriminate. congruence.
Qed.

(** ** Taking edits back *)
Definition back (x y : bool) (i : piece T) : piece T :=
  match i with
  | Keep t => Keep t
  | First a b => if x then First b a else First a b
  | Second a b => if y then Second b a else Second a b
  end.
Definition other (i : piece T) : piece T := match i with Keep t => Keep t | First a b => Second a b | Second a b => First a b end.
Lemma separate_map (f : piece T -> piece T) l :
  (forall i, is_keep i -> is_keep (f i)) -> (forall i, Permutation (tokens_of i) (tokens_of (f i))) ->
  (forall i, match i with Keep t => t <> [] | First a b | Second a b => ~ (a = [] /\ b = []) end ->
             match f i with Keep t => t <> [] | First a b | Second a b => ~ (a = [] /\ b = []) end) ->
  separate l -> separate (map f l).
Proof.
  intros K P F (A & Fl & N). split; [|split].
  - intros k x y Hx Hy. rewrite nth_error_map in Hx, Hy.
    destruct (nth_error l k) as [i|] eqn:Ei; [|discriminate]. destruct (nth_error l (S k)) as [j|] eqn:Ej; [|discriminate].
    injection Hx as <-. injection Hy as <-. destruct (A k i j Ei Ej) as [H|H]; auto.
  - apply Forall_map. revert Fl. apply Forall_impl. exact F.
  - apply (Permutation_NoDup (l := all_tokens l)); [|exact N]. clear -P. unfold all_tokens. induction l as [|i l IH]; [constructor|].
    cbn [map flat_map]. apply Permutation_app; [apply (P i)|exact IH].
Qed.
Lemma separate_back x y l : separate l -> separate (map (back x y) l).
Proof.
  apply separate_map.
  - intros [t|a b|a b] H; try destruct H. exact Logic.I.
  - intros [t|a b|a b]; cbn [back tokens_of]; [reflexivity|destruct x|destruct y]; cbn; first [reflexivity|apply Permutation_app_comm].
  - intros [t|a b|a b]; cbn [back]; [auto|destruct x|destruct y]; tauto.
Qed.
Lemma separate_other l : separate l -> separate (map other l).
Proof.
  apply separate_map.
  - intros [t|a b|a b] H; try destruct H. exact Logic.I.
  - intros [t|a b|a b]; reflexivity.
  - intros [t|a b|a b]; cbn; auto.
Qed.
Ltac corner l := induction l as [|[t|a b|a b] l IH]; cbn; [reflexivity|f_equal; exact IH..].
Lemma other_corners l : neither (map other l) = neither l /\ by_first (map other l) = by_second l /\
  by_second (map other l) = by_first l /\ by_both (map other l) = by_both l.
Proof. repeat split; corner l. Qed.
Lemma back_first l : neither (map (back true false) l) = by_first l /\ by_first (map (back true false) l) = neither l /\
  by_second (map (back true false) l) = by_both l /\ by_both (map (back true false) l) = by_second l.
Proof. repeat split; corner l. Qed.
Lemma back_second l : neither (map (back false true) l) = by_second l /\ by_first (map (back false true) l) = by_both l /\
  by_second (map (back false true) l) = neither l /\ by_both (map (back false true) l) = by_first l.
Proof. repeat split; corner l. Qed.
Lemma back_both l : neither (map (back true true) l) = by_both l /\ by_first (map (back true true) l) = by_second l /\
  by_second (map (back true true) l) = by_first l /\ by_both (map (back true true) l) = neither l.
Proof. repeat split; corner l. Qed.

(** C132: any three corners give the fourth, in either order *)
Theorem square k l : separate l ->
  merge_token_sequence k (neither l) (by_first l) (by_second l) = Ok [DText (by_both l)] /\
  merge_token_sequence k (neither l) (by_second l) (by_first l) = Ok [DText (by_both l)] /\
  merge_token_sequence k (by_first l) (by_both l) (neither l) = Ok [DText (by_second l)] /\
  merge_token_sequence k (by_first l) (neither l) (by_both l) = Ok [DText (by_second l)] /\
  merge_token_sequence k (by_second l) (by_both l) (neither l) = Ok [DText (by_first l)] /\
  merge_token_sequence k (by_second l) (neither l) (by_both l) = Ok [DText (by_first l)] /\
  merge_token_sequence k (by_both l) (by_first l) (by_second l) = Ok [DText (neither l)] /\
  merge_token_sequence k (by_both l) (by_second l) (by_first l) = Ok [DText (neither l)].
Proof.
  intros S.
  assert (Both : forall m, separate m -> merge_token_sequence k (neither m) (by_first m) (by_second m) = Ok [DText (by_both m)] /\
    merge_token_sequence k (neither m) (by_second m) (by_first m) = Ok [DText (by_both m)]).
  { intros m Sm. split; [now apply square_merge|]. pose proof (square_merge k _ (separate_other m Sm)) as H.
    destruct (other_corners m) as (E1 & E2 & E3 & E4). now rewrite E1, E2, E3, E4 in H. }
  destruct (Both l S) as [H1 H2]. destruct (Both _ (separate_back true false l S)) as [H3 H4].
  destruct (Both _ (separate_back false true l S)) as [H5 H6]. destruct (Both _ (separate_back true true l S)) as [H7 H8].
  destruct (back_first l) as (E1 & E2 & E3 & E4). rewrite E1, E2, E3, E4 in H3, H4.
  destruct (back_second l) as (F1 & F2 & F3 & F4). rewrite F1, F2, F3, F4 in H5, H6.
  destruct (back_both l) as (G1 & G2 & G3 & G4). rewrite G1, G2, G3, G4 in H7, H8.
  repeat split; assumption.
Qed.

(** the diffs along the sides *)
Theorem sides l : separate l ->
  diff_token_sequences (neither l) (by_second l) = Ok (glued (shown false l)) /\
  diff_token_sequences (by_first l) (by_both l) = Ok (glued (shown true l)).
Proof.
  assert (H : forall m, separate m -> diff_token_sequences (neither m) (by_second m) = Ok (glued (shown false m))).
  { intros m Sm. pose proof (diff_finds_edits _ (script_distinct false true m Sm)) as H.
    rewrite script_before_of, script_after_of in H. rewrite H. reflexivity. }
  intros S. split; [now apply H|]. specialize (H _ (separate_back true false l S)).
  destruct (back_first l) as (E1 & E2 & E3 & E4). rewrite E1, E3 in H. rewrite H. do 2 f_equal. unfold shown. rewrite map_map.
  apply map_ext. intros [t|a b|a b]; reflexivity.
Qed.
End Square.
