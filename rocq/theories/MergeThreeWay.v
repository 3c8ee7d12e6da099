(** The merge as a three-way merge (C73). *)
From Verif Require Import Base Strings SpecSeq AutomatonProofs Changesets SpecDiff ChangesetsProofs DiffLaws DiffProofs Merge SpecMerge SpecThreeWay
  MergeStreams MergeSteps MergeUnion MergeConsolidate MergeProofs MergeLaws.

Section ThreeWay.
Context {T : Type} {E : Teq T} {O : TeqOk T}.
Variable p : list T.

Definition dit (f : frag T) : ditem T :=
  match f with FCopy i _ => DText i | FChange i d _ => DChange i d end.
Lemma dit_frag_of (d : list (ditem T)) : map dit (map frag_of d) = d.
Proof. rewrite map_map; rewrite <- map_id; apply map_ext; now intros [t|a b]. Qed.
Definition unofr (o : ofrag T) : ditem T :=
  match o with OFrag f => DText (f_insert f) | OConf a b => DChange (vseq a) (vseq b) end.

(** ** Steps of the streams *)
Lemma keep_ctail pos n k r : k <= n -> pos + n <= length p ->
  step true (map dit (cfrag p pos n :: r)) (seg p pos (pos + k)) (seg p pos (pos + k)) (map dit (ctail p pos n k r)).
Proof.
  intros Hk Hl; unfold ctail; destruct (Nat.ltb_spec k n); cbn [map dit cfrag].
  - rewrite (seg_app p pos (pos + k) (pos + n)) by lia; constructor.
  - assert (k = n) as -> by lia; constructor.
Qed.
Lemma edit_gtail pos i n k r : k <= n -> pos + n <= length p ->
  step false (map dit (gfrag p pos i n :: r)) (seg p pos (pos + k)) i (map dit (gtail p pos n k r)).
Proof.
  intros Hk Hl; unfold gtail; destruct (Nat.ltb_spec k n); cbn [map dit gfrag].
  - rewrite (seg_app p pos (pos + k) (pos + n)) by lia; constructor.
  - assert (k = n) as -> by lia; constructor.
Qed.
Lemma edit_all_g pos i n r : step false (map dit (gfrag p pos i n :: r)) (seg p pos (pos + n)) i (map dit r).
Proof. constructor. Qed.
Lemma edit_ins pos i r : step false (map dit (gfrag p pos i 0 :: r)) [] i (map dit r).
Proof. replace (@nil T) with (seg p pos (pos + 0)) at 1 by (rewrite Nat.add_0_r; apply seg_nil); apply edit_all_g. Qed.
Lemma keep_all_c pos n r : step true (map dit (cfrag p pos n :: r)) (seg p pos (pos + n)) (seg p pos (pos + n)) (map dit r).
Proof. constructor. Qed.

Lemma seg_nonempty a b : a < b -> b <= length p -> seg p a b <> [].
Proof. intros H L C; apply (f_equal (@length T)) in C; rewrite seg_length in C by lia; cbn in C; lia. Qed.

(** ** What one plain fragment may stand for *)
Inductive txt : list (ditem T) -> list (ditem T) -> list T -> list (ditem T) -> list (ditem T) -> Prop :=
| txt_nil d0 d1 : txt d0 d1 [] d0 d1
| txt_left k s y d0 d0' d0'' d1 d1' d1'' t : step true d0 s s d0' -> step k d1 s y d1' ->
    txt d0' d1' t d0'' d1'' -> txt d0 d1 (y ++ t) d0'' d1''
| txt_right k s x d0 d0' d0'' d1 d1' d1'' t : step k d0 s x d0' -> step true d1 s s d1' ->
    txt d0' d1' t d0'' d1'' -> txt d0 d1 (x ++ t) d0'' d1''
| txt_same s x d0 d0' d0'' d1 d1' d1'' t : step false d0 s x d0' -> step false d1 s x d1' ->
    s <> [] \/ x <> [] ->
    txt d0' d1' t d0'' d1'' -> txt d0 d1 (x ++ t) d0'' d1''.

(** The flag is [within_conflict]: whether a clash was seen in the current group of
    conflicts. *)
Inductive explains : bool -> list (ditem T) -> list (ditem T) -> list (ofrag T) -> Prop :=
| ex_nil w : explains w [] [] []
| ex_text w f d0 d0' d1 d1' out : txt d0 d1 (f_insert f) d0' d1' -> explains false d0' d1' out ->
    explains w d0 d1 (OFrag f :: out)
| ex_over k0 k1 s v0 v1 d0 d0' d1 d1' out : step k0 d0 s (vseq v0) d0' -> step k1 d1 s (vseq v1) d1' ->
    k0 = false \/ k1 = false -> over d0' d1' -> explains false d0' d1' out ->
    explains false d0 d1 (OConf v0 v1 :: out)
| ex_clash s v0 v1 d0 d0' d1 d1' out : step false d0 s (vseq v0) d0' -> step false d1 s (vseq v1) d1' ->
    s <> [] \/ (vseq v0 <> [] /\ vseq v1 <> []) -> explains true d0' d1' out ->
    explains false d0 d1 (OConf v0 v1 :: out)
| ex_conf k0 k1 s v0 v1 d0 d0' d1 d1' out : step k0 d0 s (vseq v0) d0' -> step k1 d1 s (vseq v1) d1' ->
    k0 = false \/ k1 = false -> explains true d0' d1' out -> explains true d0 d1 (OConf v0 v1 :: out).

Lemma txt_left1 k s y d0 d0' d1 d1' : step true d0 s s d0' -> step k d1 s y d1' -> txt d0 d1 y d0' d1'.
Proof. intros A B; rewrite <- (app_nil_r y); eapply txt_left; eauto; constructor. Qed.
Lemma txt_right1 k s x d0 d0' d1 d1' : step k d0 s x d0' -> step true d1 s s d1' -> txt d0 d1 x d0' d1'.
Proof. intros A B; rewrite <- (app_nil_r x); eapply txt_right; eauto; constructor. Qed.
Lemma txt_same1 s x d0 d0' d1 d1' : step false d0 s x d0' -> step false d1 s x d1' -> s <> [] \/ x <> [] -> txt d0 d1 x d0' d1'.
Proof. intros A B C; rewrite <- (app_nil_r x); eapply txt_same; eauto; constructor. Qed.

Definition fits0 pos (fs0 fs1 : list (frag T)) (out : list (ofrag T)) : Prop :=
  forall i n r m r', fs0 = gfrag p pos i n :: r -> fs1 = cfrag p pos m :: r' -> n <= m ->
    exists f out', out = OFrag f :: out' /\ f_insert f = i /\ explains false (map dit r) (map dit (ctail p pos m n r')) out'.
Definition fits1 pos (fs0 fs1 : list (frag T)) (out : list (ofrag T)) : Prop :=
  forall i n r m r', fs1 = gfrag p pos i n :: r -> fs0 = cfrag p pos m :: r' -> n <= m ->
    exists f out', out = OFrag f :: out' /\ f_insert f = i /\ explains false (map dit (ctail p pos m n r')) (map dit r) out'.

Theorem run_explains pos fs0 fs1 w out : mrun p pos fs0 fs1 w out ->
  reach_free (fedits pos fs0) (fedits pos fs1) -> cover_free (fedits pos fs0) (fedits pos fs1) ->
  explains w (map dit fs0) (map dit fs1) out /\
  (w = false -> fits0 pos fs0 fs1 out) /\ (w = false -> fits1 pos fs0 fs1 out).
Proof.
  induction 1 as [fs1 w S1|fs0 w S0|pos fs0 fs1 w o pos' fs0' fs1' w' rest S0 S1 HM HR IH]; intros HK1 HK2.
  - split; [|split].
    + apply stream_end in S1; destruct S1 as [->|[i [Hi ->]]]; [destruct w; constructor|].
      destruct w; cbn.
      * eapply ex_conf; [apply stay|apply edit_all|now right|constructor].
      * eapply ex_text; [|constructor]; eapply txt_left1; [apply stay|apply edit_all].
    + intros _ ? ? ? ? ? C; discriminate.
    + intros _ ? ? ? ? ? _ C; discriminate.
  - split; [|split].
    + apply stream_end in S0; destruct S0 as [->|[i [Hi ->]]]; [destruct w; constructor|].
      destruct w; cbn.
      * eapply ex_conf; [apply edit_all|apply stay|now left|constructor].
      * eapply ex_text; [|constructor]; eapply txt_right1; [apply edit_all|apply stay].
    + intros _ ? ? ? ? ? _ C; discriminate.
    + intros _ ? ? ? ? ? C; discriminate.
  - destruct (mstep_streams _ _ _ _ _ _ _ _ _ _ HM) as [S0' S1'].
    assert (A0 := stream_above _ _ _ _ _ S0'); assert (A1 := stream_above _ _ _ _ _ S1').
    assert (KC : cut pos' (fedits pos fs0) (fedits pos' fs0') -> cut pos' (fedits pos fs1) (fedits pos' fs1') ->
      explains w' (map dit fs0') (map dit fs1') rest /\
      (w' = false -> fits0 pos' fs0' fs1' rest) /\ (w' = false -> fits1 pos' fs0' fs1' rest)).
    { intros C0 C1; destruct (K_cut _ _ _ _ _ HK1 HK2 C0 C1 A0 A1) as [K1' K2']; auto. }
    clear IH A0 A1.
    destruct HM as [pos n0 r0 n1 r1 w k Hk Hn0 Hn1 Hl0 Hl1 R0 R1
      |pos i0 n0 r0 n1 r1 Hn Hn1 Hl1 Hi R0 R1|pos n0 r0 i1 n1 r1 Hn Hn0 Hl0 Hi R0 R1
      |pos i0 n0 r0 n1 r1 Hn Hn1 Hl R0 R1|pos n0 r0 i1 n1 r1 Hn Hn0 Hl R0 R1
      |pos i0 r0 n1 r1 Hl Hi Hn R0 R1|pos n0 r0 i1 r1 Hl Hi Hn R0 R1
      |pos i n r0 r1 Hl Hi R0 R1
      |pos i0 n0 r0 i1 n1 r1 k Hk Hl0 Hl1 Hi0 Hi1 N0 N1 N2 R0 R1
      |pos i0 n0 r0 n1 r1 k v0 v1 Hk Hn1 Hl0 Hl1 Hi Hv0 Hv1 R0 R1
      |pos n0 r0 i1 n1 r1 k v0 v1 Hk Hn0 Hl0 Hl1 Hi Hv0 Hv1 R0 R1
      |pos i0 n0 r0 i1 n1 r1 k v0 v1 Hk Hl0 Hl1 Hi0 Hi1 Hv0 Hv1 R0 R1].
    + destruct KC as [KC _]; [apply cut_ctail; lia|apply cut_ctail; lia|].
      split; [|split].
      * eapply ex_text; [|exact KC]; eapply txt_left1; apply keep_ctail; lia.
      * intros _ ? ? ? ? ? C; discriminate.
      * intros _ ? ? ? ? ? C; discriminate.
    + destruct KC as [KC _]; [apply cut_drop|apply cut_ctail; lia|].
      split; [|split].
      * eapply ex_text; [|exact KC]; eapply txt_right1; [apply edit_all_g|apply keep_ctail; lia].
      * intros _ ? ? ? ? ? C D L; injection C as -> _ -> ->; injection D as _ -> ->.
        eexists _, _; split; [reflexivity|split; [reflexivity|exact KC]].
      * intros _ ? ? ? ? ? C; discriminate.
    + destruct KC as [KC _]; [apply cut_ctail; lia|apply cut_drop|].
      split; [|split].
      * eapply ex_text; [|exact KC]; eapply txt_left1; [apply keep_ctail; lia|apply edit_all_g].
      * intros _ ? ? ? ? ? C; discriminate.
      * intros _ ? ? ? ? ? C D L; injection C as -> _ -> ->; injection D as _ -> ->.
        eexists _, _; split; [reflexivity|split; [reflexivity|exact KC]].
    + destruct KC as [KC _]; [apply cut_gtail; lia|apply cut_cdrop|].
      split; [|split].
      * eapply ex_over; [| | | |exact KC]; [apply edit_gtail; lia|apply keep_all_c|now left|].
        destruct (stream_must_change _ _ _ R1) as [i [n [r ->]]]; [lia|].
        unfold gtail; destruct (Nat.ltb_spec n1 n0); [|lia].
        eexists _, _, _, _, _, _; split; [reflexivity|split; [reflexivity|]].
        left; split; [reflexivity|apply seg_nonempty; lia].
      * intros _ ? ? ? ? ? C D L; injection C as -> _ -> _; injection D as _ -> _; lia.
      * intros _ ? ? ? ? ? C; discriminate.
    + (* excluded by reach_free *)
      exfalso; destruct (stream_must_change _ _ _ R0) as [i [n [r ->]]]; [lia|].
      apply (HK1 (pos + n0, i, n) (pos, i1, n1)); cbn [fedits cfrag gfrag In]; auto;
        unfold e_end, e_pos, e_len; cbn [fst snd]; lia.
    + destruct (stream_must_copy _ _ _ R0) as [m [r ->]]; [lia|].
      inversion R0; subst.
      destruct (le_lt_dec n1 m) as [Hm|Hm].
      * destruct KC as [_ [_ KC]].
        { apply cut_incl; cbn [fedits gfrag]; intros e He; right; rewrite Nat.add_0_r; exact He. }
        { apply cut_swap. }
        destruct (KC eq_refl _ _ _ _ _ eq_refl eq_refl Hm) as (f & out' & -> & Hf & KE).
        split; [|split].
        -- cbn [app]; eapply ex_text; [|exact KE]; replace (f_insert f) with (i0 ++ []) by (rewrite app_nil_r; auto).
           eapply txt_right; [apply edit_ins|apply stay|].
           eapply txt_left1; [apply keep_ctail; lia|apply edit_all_g].
        -- intros _ ? ? ? ? ? _ C; discriminate.
        -- intros _ ? ? ? ? ? _ C; discriminate.
      * exfalso.
        match goal with H : stream p false true (pos + m) r |- _ => destruct (stream_must_change _ _ _ H) as [i [n [r' ->]]]; [lia|] end.
        apply (HK1 (pos + m, i, n) (pos, [], n1)); cbn [fedits cfrag gfrag In]; auto.
        -- right; left; f_equal; f_equal; lia.
        -- unfold e_pos; cbn; lia.
        -- unfold e_end, e_pos, e_len; cbn; lia.
    + destruct (stream_must_copy _ _ _ R1) as [m [r ->]]; [lia|].
      inversion R1; subst.
      destruct (le_lt_dec n0 m) as [Hm|Hm].
      * destruct KC as [_ [KC _]].
        { apply cut_swap. }
        { apply cut_incl; cbn [fedits gfrag]; intros e He; right; rewrite Nat.add_0_r; exact He. }
        destruct (KC eq_refl _ _ _ _ _ eq_refl eq_refl Hm) as (f & out' & -> & Hf & KE).
        split; [|split].
        -- cbn [app]; eapply ex_text; [|exact KE]; replace (f_insert f) with (i1 ++ []) by (rewrite app_nil_r; auto).
           eapply txt_left; [apply stay|apply edit_ins|].
           eapply txt_right1; [apply edit_all_g|apply keep_ctail; lia].
        -- intros _ ? ? ? ? ? _ C; discriminate.
        -- intros _ ? ? ? ? ? _ C; discriminate.
      * exfalso.
        match goal with H : stream p false true (pos + m) r |- _ => destruct (stream_must_change _ _ _ H) as [i [n [r' ->]]]; [lia|] end.
        apply (HK2 (pos, [], n0) (pos, i1, 0) (pos + m, i, n)); cbn [fedits cfrag gfrag In]; auto.
        -- right; left; f_equal; f_equal; lia.
        -- unfold e_pos; cbn; lia.
        -- unfold e_end, e_pos, e_len; cbn; lia.
    + destruct KC as [KC _]; [apply cut_drop|apply cut_drop|].
      split; [|split].
      * eapply ex_text; [|exact KC]; eapply txt_same1; [apply edit_all_g|apply edit_all_g|destruct Hi; [left; apply seg_nonempty; lia|now right]].
      * intros _ ? ? ? ? ? _ C; discriminate.
      * intros _ ? ? ? ? ? _ C; discriminate.
    + destruct KC as [KC _]; [apply cut_gtail; lia|apply cut_gtail; lia|].
      split; [|split].
      * eapply ex_clash; [| | |exact KC]; [apply edit_gtail; lia|apply edit_gtail; lia|].
        destruct (Nat.eq_dec k 0) as [K0|K0]; [right|left; apply seg_nonempty; lia].
        cbn [vseq]; destruct i0, i1; split; try discriminate; intros _.
        -- destruct Hi0 as [Hi0|[]]; destruct Hi1 as [Hi1|[]]; auto; lia.
        -- destruct Hi0 as [Hi0|[]]; destruct Hi1 as [Hi1|[]]; auto; lia.
        -- destruct Hi0 as [Hi0|[]]; auto; apply N1; split; [reflexivity|lia].
        -- destruct Hi1 as [Hi1|[]]; auto; apply N0; split; [lia|reflexivity].
      * intros _ ? ? ? ? ? _ C; discriminate.
      * intros _ ? ? ? ? ? _ C; discriminate.
    + destruct KC as [KC _]; [apply cut_gtail; lia|apply cut_ctail; lia|].
      split; [|split; discriminate].
      eapply ex_conf; [| | |exact KC]; [rewrite Hv0; apply edit_gtail; lia|rewrite Hv1; apply keep_ctail; lia|now left].
    + destruct KC as [KC _]; [apply cut_ctail; lia|apply cut_gtail; lia|].
      split; [|split; discriminate].
      eapply ex_conf; [| | |exact KC]; [rewrite Hv0; apply keep_ctail; lia|rewrite Hv1; apply edit_gtail; lia|now right].
    + destruct KC as [KC _]; [apply cut_gtail; lia|apply cut_gtail; lia|].
      split; [|split; discriminate].
      eapply ex_conf; [| | |exact KC]; [rewrite Hv0; apply edit_gtail; lia|rewrite Hv1; apply edit_gtail; lia|now left].
Qed.

(** ** From the fragments to the result *)
Inductive splits : list (ditem T) -> list (ditem T) -> Prop :=
| sp_nil : splits [] []
| sp_change a b l' l : splits l' l -> splits (DChange a b :: l') (DChange a b :: l)
| sp_text y ys l' l : splits l' l -> splits (map DText (y :: ys) ++ l') (DText (y ++ concat ys) :: l).

Lemma sp_text1 t l' l : splits l' l -> splits (DText t :: l') (DText t :: l).
Proof. intros H; replace (DText t :: l) with (DText (t ++ concat []) :: l) by (cbn; now rewrite app_nil_r); now apply (sp_text t []). Qed.
Lemma splits_refl l : splits l l.
Proof. induction l as [|[t|a b] l IH]; [constructor|now apply sp_text1|now constructor]. Qed.
Lemma splits_app a' a b' b : splits a' a -> splits b' b -> splits (a' ++ b') (a ++ b).
Proof. induction 1; intros; cbn [app]; [assumption|now constructor; auto|rewrite <- app_assoc; now constructor; auto]. Qed.

Lemma glue_many (ys : list (list T)) : forall y l r, glue (DText (y ++ concat ys) :: l) r -> glue (map DText (y :: ys) ++ l) r.
Proof.
  induction ys as [|z ys IH]; intros y l r H; cbn in *.
  - now rewrite app_nil_r in H.
  - apply glue_texts, (IH (y ++ z)); now rewrite <- app_assoc.
Qed.
Lemma glue_empties ys : Forall (fun y : list T => y = []) ys -> forall l r, glue l r -> glue (map DText ys ++ l) r.
Proof. induction 1 as [|y ys -> F IH]; intros l r H; cbn; [exact H|apply glue_text; auto]. Qed.
Lemma concat_nil_inv (ys : list (list T)) : concat ys = [] -> Forall (fun y => y = []) ys.
Proof. induction ys as [|y ys IH]; cbn; [constructor|]; intros H; apply app_eq_nil in H as [-> H]; constructor; auto. Qed.
Lemma splits_glue l r : glue l r -> forall l', splits l' l -> glue l' r.
Proof.
  induction 1 as [|i l r H IH|a b l r H IH|a b a' b' l r H IH|l r H IH|l r H IH]; intros l' Hs; inversion Hs; subst.
  - constructor.
  - apply glue_keep; auto.
  - apply glue_many, glue_keep; auto.
  - match goal with H : splits _ (DText b :: l) |- _ => inversion H; subst end.
    rewrite app_assoc, <- map_app; cbn [app].
    apply IH; rewrite <- app_assoc.
    replace (concat ys ++ y0 ++ concat ys0) with (concat (ys ++ y0 :: ys0)) by (rewrite concat_app; reflexivity).
    now apply sp_text.
  - match goal with H : splits _ (DChange a' b' :: l) |- _ => inversion H; subst end.
    apply glue_changes, IH; now constructor.
  - match goal with H : _ ++ concat _ = [] |- _ => apply app_eq_nil in H as [-> C] end.
    apply glue_empties; [constructor; auto using concat_nil_inv|auto].
  - apply glue_change; auto.
Qed.

Lemma txt_pieces d0 d1 t d0' d1' : txt d0 d1 t d0' d1' -> forall r, three_way d0' d1' r ->
  exists ys, concat ys = t /\ three_way d0 d1 (map DText ys ++ r).
Proof.
  induction 1 as [d0 d1|k s y d0 d0' d0'' d1 d1' d1'' t A B H IH|k s y d0 d0' d0'' d1 d1' d1'' t A B H IH
    |s y d0 d0' d0'' d1 d1' d1'' t A B C H IH]; intros r Hr.
  - exists []; auto.
  - destruct (IH r Hr) as [ys [<- Ht]]; exists (y :: ys); split; [reflexivity|]; eapply tw_left; eauto.
  - destruct (IH r Hr) as [ys [<- Ht]]; exists (y :: ys); split; [reflexivity|]; eapply tw_right; eauto.
  - destruct (IH r Hr) as [ys [<- Ht]]; exists (y :: ys); split; [reflexivity|].
    change (map DText (y :: ys) ++ r) with ([DText y] ++ (map DText ys ++ r)).
    eapply (tw_region true (y ++ []) (y ++ [])); [|now left|cbn; auto|cbn; auto|exact Ht].
    eapply region_clash; [exact A|exact B|destruct C; auto|constructor].
Qed.
Lemma explains_frags fs : forall w d0 d1 l, explains w d0 d1 (map OFrag fs ++ l) ->
  exists w' d0' d1', explains w' d0' d1' l /\ (w' = false \/ fs = [] /\ w' = w) /\ forall r r', three_way d0' d1' r -> splits r r' ->
    exists q, three_way d0 d1 q /\ splits q (map unofr (map OFrag fs) ++ r').
Proof.
  induction fs as [|f fs IH]; intros w d0 d1 l H; cbn [map app] in *.
  - exists w, d0, d1; split; [exact H|split; [auto|]]; intros; eauto.
  - inversion H as [|? f' ? d0a ? d1a out Ht He| | |]; subst.
    destruct (IH _ _ _ _ He) as (w' & d0' & d1' & H1 & W & H2); exists w', d0', d1'; split; [exact H1|].
    split; [destruct W as [W|[_ W]]; auto|].
    intros r r' Hr Hs; destruct (H2 r r' Hr Hs) as [q [Q1 Q2]].
    destruct (txt_pieces _ _ _ _ _ Ht q Q1) as [ys [Hy Q3]].
    exists (map DText ([] :: ys) ++ q); split.
    + cbn [map app]; eapply tw_left; [apply stay|apply stay|exact Q3].
    + cbn [unofr]; rewrite <- Hy; apply (sp_text []); exact Q2.
Qed.
Lemma explains_group g : forall w d0 d1 l, explains w d0 d1 (map conf g ++ l) ->
  exists w' c d0' d1', region c d0 d1 (joined (map fst g)) (joined (map snd g)) d0' d1' /\ explains w' d0' d1' l /\
    (w = true \/ (g = [] /\ d0' = d0 /\ d1' = d1) \/ c = true \/ over d0' d1').
Proof.
  induction g as [|[a b] g IH]; intros w d0 d1 l H; cbn [map app] in *.
  - exists w, false, d0, d1; split; [constructor|split; [exact H|auto 6]].
  - inversion H as [| |k0 k1 s v0 v1 ? d0a ? d1a out S0 S1 K HO He|s v0 v1 ? d0a ? d1a out S0 S1 K He
      |k0 k1 s v0 v1 ? d0a ? d1a out S0 S1 K He]; subst;
      destruct (IH _ _ _ _ He) as (w' & c & d0' & d1' & H1 & H2 & H3).
    + exists w', c, d0', d1'; split; [eapply region_step; eauto|split; [exact H2|]].
      destruct H3 as [H3|[(_ & -> & ->)|H3]]; [discriminate|auto|auto].
    + exists w', true, d0', d1'; split; [eapply region_clash; eauto|auto].
    + exists w', c, d0', d1'; split; [eapply region_step; eauto|auto].
Qed.
Lemma unofr_ofr (d : list (ditem T)) : map unofr (map ofr d) = d.
Proof. rewrite map_map; rewrite <- map_id; apply map_ext; now intros [t|a b]. Qed.
Lemma normal_nil (d : list (ditem T)) : normal_diff d -> diff_before d = [] -> diff_after d = [] -> d = [].
Proof.
  destruct d as [|[t|a b] d]; [auto| |]; intros [_ F] B A; apply Forall_inv in F; cbn in F, A, B.
  - apply app_eq_nil in A as [-> _]; now elim F.
  - apply app_eq_nil in A as [-> _]; apply app_eq_nil in B as [-> _]; now elim (proj1 F).
Qed.
Lemma pass1_three_way out staged : pass1 out staged -> forall w d0 d1, explains w d0 d1 out -> w = false \/ out = [] ->
  exists q, three_way d0 d1 q /\ splits q (map unofr staged).
Proof.
  induction 1 as [|g fs r rest d Hg Hr Hf Hn Hb Ha HP IH]; intros w d0 d1 H Hw.
  - inversion H; subst; exists []; split; constructor.
  - assert (w = false) as ->.
    { destruct Hw as [Hw|Hw]; [exact Hw|]; exfalso.
      apply app_eq_nil in Hw as [W1 Hw]; apply app_eq_nil in Hw as [W2 _].
      apply map_eq_nil in W1, W2; destruct Hg; auto. }
    apply explains_group in H as (w' & c & d0a & d1a & HR & H & HC).
    apply explains_frags in H as (w'' & d0b & d1b & H & HW & HF).
    destruct (IH _ _ _ H) as [q [Q1 Q2]]; [destruct HW as [HW|[HW _]]; auto|].
    destruct (HF _ _ Q1 Q2) as [q' [Q3 Q4]].
    exists (d ++ q'); split.
    + destruct HC as [HC|[(-> & -> & ->)|HC]]; [discriminate| |eapply tw_region; eauto].
      cbn in Hb, Ha; rewrite (normal_nil d Hn Hb Ha); exact Q3.
    + rewrite !map_app, unofr_ofr; apply splits_app; [apply splits_refl|exact Q4].
Qed.

Lemma glue_conf g : forall a b l r, glue l r ->
  glue (DChange a b :: map unofr (map conf g) ++ l)
    ((if nonempty (a ++ joined (map fst g)) || nonempty (b ++ joined (map snd g))
      then [DChange (a ++ joined (map fst g)) (b ++ joined (map snd g))] else []) ++ r).
Proof.
  induction g as [|[v0 v1] g IH]; intros a b l r H; cbn [map app].
  - unfold joined; cbn [map concat]; rewrite !app_nil_r.
    destruct (nonempty a || nonempty b) eqn:N; [now apply glue_keep|].
    apply orb_false_elim in N as [N0 N1]; apply nonempty_false in N0, N1; subst; now apply glue_change.
  - apply glue_changes; specialize (IH (a ++ vseq v0) (b ++ vseq v1) l r H).
    rewrite <- !app_assoc in IH; exact IH.
Qed.
Lemma glue_confs g l r : glue l r ->
  glue (map unofr (map conf g) ++ l)
    ((if nonempty (joined (map fst g)) || nonempty (joined (map snd g))
      then [DChange (joined (map fst g)) (joined (map snd g))] else []) ++ r).
Proof.
  intros H; destruct g as [|[v0 v1] g]; [exact H|].
  apply (glue_conf g (vseq v0) (vseq v1) l r H).
Qed.
Lemma glue_frags fs l r : glue l r ->
  glue (map unofr (map OFrag fs) ++ l) ((if nonempty (ftext fs) then [DText (ftext fs)] else []) ++ r).
Proof.
  intros H; replace (map unofr (map OFrag fs)) with (map DText (map f_insert fs)) by (now rewrite !map_map).
  unfold ftext; destruct (nonempty _) eqn:N.
  - destruct (map f_insert fs) as [|y ys]; [discriminate|].
    apply glue_many; now apply glue_keep.
  - apply nonempty_false, concat_nil_inv in N; now apply glue_empties.
Qed.
Lemma pass2_glue staged items : pass2 staged items -> glue (map unofr staged) items.
Proof.
  induction 1 as [|g fs r rest Hg Hr Hf HP IH]; [constructor|].
  rewrite !map_app; apply glue_confs, glue_frags, IH.
Qed.
Lemma finish_three_way (d0 d1 q items : list (ditem T)) : three_way d0 d1 q -> glue q items ->
  exists q', three_way d0 d1 q' /\ glue q' (finish items).
Proof.
  intros H G; destruct items as [|i items]; [|eauto].
  exists (DText [] :: q); split; [eapply tw_left; [apply stay|apply stay|exact H]|now apply glue_keep].
Qed.
End ThreeWay.

Section Laws.
Context {T : Type} {E : Teq T} {O : TeqOk T}.
Theorem merge_three_way k (p b0 b1 : list T) r d0 d1 : merge_token_sequence k p b0 b1 = Ok r ->
  diff_token_sequences p b0 = Ok d0 -> diff_token_sequences p b1 = Ok d1 ->
  reach_free (edits 0 d0) (edits 0 d1) -> cover_free (edits 0 d0) (edits 0 d1) ->
  exists q, three_way d0 d1 q /\ glue q r.
Proof.
  destruct (merge_shape k p b0 b1) as (d0' & d1' & out & D0 & D1 & A0 & A1 & _ & _ & HR & -> & _); intros H D0' D1' HK1 HK2.
  assert (d0' = d0) as -> by congruence; assert (d1' = d1) as -> by congruence.
  destruct (consolidate_ok k out) as [(staged & items & P1 & P2 & HE & _)|[_ HE]]; [|congruence].
  rewrite HE in H; injection H as <-.
  destruct (run_explains _ _ _ _ _ _ HR) as [X _]; [now rewrite !fedits_frag_of|now rewrite !fedits_frag_of|].
  rewrite !dit_frag_of in X.
  destruct (pass1_three_way _ _ P1 _ _ _ X (or_introl eq_refl)) as [q [Q1 Q2]].
  eapply finish_three_way; [exact Q1|]; eapply splits_glue; [|exact Q2]; now apply pass2_glue.
Qed.

(** ** When nothing is inserted and one branch removes everything *)
Lemma glue_plain (l r : list (ditem T)) : glue l r -> plain l = plain r.
Proof.
  induction 1; auto; unfold plain in *; cbn [flat_map] in *; rewrite ?app_assoc in *; congruence || (now f_equal) || auto.
Qed.
Definition no_insert (d : list (ditem T)) : Prop := Forall (fun i => match i with DText _ => True | DChange a _ => a = [] end) d.
Definition no_text (d : list (ditem T)) : Prop := Forall (fun i => match i with DText _ => False | DChange a _ => a = [] end) d.
Lemma step_no_insert k (d : list (ditem T)) s x d' : step k d s x d' -> no_insert d -> no_insert d' /\ (s = [] -> x = []).
Proof. destruct 1; intros H; try (inversion H; subst; clear H); split; auto; constructor; auto. Qed.
Lemma step_no_text k (d : list (ditem T)) s x d' : step k d s x d' -> no_text d -> no_text d' /\ x = [].
Proof. destruct 1; intros H; try (inversion H; subst; clear H); try contradiction; split; auto; constructor; auto. Qed.
Lemma region_no_text c (d0 d1 : list (ditem T)) x y d0' d1' : region c d0 d1 x y d0' d1' -> no_insert d0 -> no_text d1 ->
  no_insert d0' /\ no_text d1' /\ y = [].
Proof.
  induction 1 as [d0 d1|k0 k1 c s x y xs ys d0 d0' d0'' d1 d1' d1'' A B K HR IH
    |c s x y xs ys d0 d0' d0'' d1 d1' d1'' A B K HR IH]; intros H0 H1; [auto| |];
  destruct (step_no_insert _ _ _ _ _ A H0) as [H0' _]; destruct (step_no_text _ _ _ _ _ B H1) as [H1' ->];
  destruct (IH H0' H1') as (? & ? & ->); auto.
Qed.
Lemma before_nil_plain (m : list (ditem T)) : diff_before m = [] -> plain m = [].
Proof.
  unfold diff_before, plain; induction m as [|[t|a b] m IH]; cbn; [auto| |]; intros H; apply app_eq_nil in H as [-> H]; auto.
Qed.
Lemma removed_plain (d0 d1 q : list (ditem T)) : three_way d0 d1 q -> no_insert d0 -> no_text d1 -> plain q = [].
Proof.
  induction 1 as [|k s y d0 d0' d1 d1' r A B HR IH|k s y d0 d0' d1 d1' r A B HR IH|c x y m d0 d0' d1 d1' r A _ B C HR IH]; intros H0 H1.
  - reflexivity.
  - destruct (step_no_insert _ _ _ _ _ A H0) as [H0' _]; destruct (step_no_text _ _ _ _ _ B H1) as [H1' ->].
    unfold plain in *; cbn; auto.
  - destruct (step_no_insert _ _ _ _ _ A H0) as [H0' X]; destruct (step_no_text _ _ _ _ _ B H1) as [H1' ->].
    rewrite (X eq_refl); unfold plain in *; cbn; auto.
  - destruct (region_no_text _ _ _ _ _ _ _ A H0 H1) as (H0' & H1' & ->).
    unfold plain; rewrite flat_map_app; fold (plain m); fold (plain r); rewrite (before_nil_plain _ C), IH; auto.
Qed.
Lemma inserted_nil (d : list (ditem T)) : inserted d = [] -> no_insert d.
Proof.
  unfold inserted, no_insert; induction d as [|[t|a b] d IH]; cbn; intros H; constructor; auto; apply app_eq_nil in H as [-> H]; auto.
Qed.
Lemma diff_to_nil (p : list T) d : diff_token_sequences p [] = Ok d -> no_text d /\ (edits 0 d = edits 0 [DChange [] p] \/ d = []).
Proof.
  intros H; destruct (diff_normal p []) as (d' & H' & (Al & F)); assert (d' = d) as -> by congruence; clear H'.
  destruct (diff_accounts p []) as (d' & H' & B & A); assert (d' = d) as -> by congruence; clear H'.
  destruct d as [|[t|a b] d]; cbn in *.
  - split; [constructor|now right].
  - apply app_eq_nil in A as [-> _]; apply Forall_inv in F; now elim F.
  - apply app_eq_nil in A as [-> A].
    assert (d = []) as ->.
    { destruct d as [|[t|x y] d]; [reflexivity| |].
      - apply app_eq_nil in A as [-> _]; apply Forall_inv_tail, Forall_inv in F; now elim F.
      - destruct (Al 0 _ _ eq_refl eq_refl) as [[[? C] _]|[_ [? C]]]; discriminate. }
    split; [now repeat constructor|left]. cbn in B; rewrite app_nil_r in B; now subst.
Qed.
Theorem merge_all_removed_ok k (p b0 : list T) r d0 : merge_token_sequence k p b0 [] = Ok r ->
  diff_token_sequences p b0 = Ok d0 -> inserted d0 = [] ->
  reach_free (edits 0 d0) (edits 0 [DChange [] p]) -> plain r = [].
Proof.
  intros HM HD HI HR; destruct (diff_normal p []) as (d1 & H1 & _).
  destruct (diff_to_nil p d1 H1) as [N1 HE].
  destruct (merge_three_way k p b0 [] r d0 d1 HM HD H1) as [q [Q1 Q2]].
  - destruct HE as [-> | ->]; [exact HR|]; intros ? ? _ [].
  - destruct HE as [-> | ->]; [|intros ? ? ? _ []].
    intros e0 e1 e2 _ [<-|[]] [<-|[]]; lia.
  - rewrite <- (glue_plain _ _ Q2); eapply removed_plain; eauto using inserted_nil.
Qed.

(** ** Where a branch keeps everything, the merge has the text of the other *)
Definition only_text (d : list (ditem T)) : Prop := Forall (fun i => match i with DText _ => True | DChange _ _ => False end) d.
Lemma step_after k (d : list (ditem T)) s x d' : step k d s x d' -> diff_after d = x ++ diff_after d'.
Proof. destruct 1; cbn; rewrite ?app_assoc; auto. Qed.
Lemma step_only k (d : list (ditem T)) s x d' : step k d s x d' -> only_text d -> only_text d' /\ x = s.
Proof. destruct 1; intros H; try (inversion H; subst; clear H); try contradiction; split; auto; constructor; auto. Qed.
Lemma region_only c (d0 d1 : list (ditem T)) x y d0' d1' : region c d0 d1 x y d0' d1' ->
  diff_after d0 = x ++ diff_after d0' /\ (only_text d1 -> only_text d1').
Proof.
  induction 1 as [d0 d1|k0 k1 c s x y xs ys d0 d0' d0'' d1 d1' d1'' A B K HR [IH1 IH2]
    |c s x y xs ys d0 d0' d0'' d1 d1' d1'' A B K HR [IH1 IH2]]; [auto| |];
    (split; [rewrite (step_after _ _ _ _ _ A), IH1; now rewrite app_assoc|intros H; apply IH2; eapply step_only; eauto]).
Qed.
Theorem three_way_kept (d0 d1 q : list (ditem T)) : three_way d0 d1 q -> only_text d1 -> diff_after q = diff_after d0.
Proof.
  induction 1 as [|k s y d0 d0' d1 d1' r A B HR IH|k s y d0 d0' d1 d1' r A B HR IH|c x y m d0 d0' d1 d1' r A _ B C HR IH]; intros H1.
  - reflexivity.
  - destruct (step_only _ _ _ _ _ B H1) as [H2 ->]; rewrite (step_after _ _ _ _ _ A), <- IH by exact H2; reflexivity.
  - destruct (step_only _ _ _ _ _ B H1) as [H2 _]; rewrite (step_after _ _ _ _ _ A), <- IH by exact H2; reflexivity.
  - destruct (region_only _ _ _ _ _ _ _ A) as [-> H2]; rewrite <- IH by auto.
    unfold diff_after in *; rewrite flat_map_app; congruence.
Qed.
Lemma glue_after (l r : list (ditem T)) : glue l r -> diff_after l = diff_after r.
Proof.
  induction 1; auto; unfold diff_after in *; cbn [flat_map] in *; rewrite ?app_assoc in *; congruence || (now f_equal) || auto.
Qed.
End Laws.

(** Parent [1;2;1]; one branch removes the 2, the other everything.  The merge is [1], and
    no conflict is reported. *)
Theorem merge_not_three_way : exists (p b0 b1 : list nat) r d0 d1,
  merge_token_sequence KStr p b0 b1 = Ok r /\
  diff_token_sequences p b0 = Ok d0 /\ diff_token_sequences p b1 = Ok d1 /\
  ~ exists q, three_way d0 d1 q /\ glue q r.
Proof.
  exists [1; 2; 1], [1; 1], [], [DText [1]], [DText [1]; DChange [] [2]; DText [1]], [DChange [] [1; 2; 1]].
  split; [vm_compute; reflexivity|]. split; [vm_compute; reflexivity|]. split; [vm_compute; reflexivity|].
  intros (q & H & G). apply removed_plain in H.
  - apply glue_plain in G. rewrite H in G. discriminate.
  - repeat constructor.
  - repeat constructor.
Qed.

Theorem merge_all_removed : exists (p b0 r : list nat) d0,
  diff_token_sequences p b0 = Ok d0 /\ inserted d0 = [] /\
  merge_token_sequence KStr p b0 [] = Ok [DText r] /\ r <> [].
Proof.
  exists [1; 2; 1], [1; 1], [1], [DText [1]; DChange [] [2]; DText [1]].
  split; [vm_compute; reflexivity|]. split; [reflexivity|]. split; [vm_compute; reflexivity|discriminate].
Qed.
Lemma no_lost_change : ~ exists q, three_way [DText [1]; DChange [8] []] [DText [1]] q /\ glue q [DText [1]].
Proof.
  intros (q & H & G); apply three_way_kept in H; [|repeat constructor].
  apply glue_after in G; rewrite G in H; discriminate.
Qed.
