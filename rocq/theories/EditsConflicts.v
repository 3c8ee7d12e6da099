(** Proofs for C78: when a merge of distinct edits has a conflict. *)
From Verif Require Import Base Strings SpecSeq AutomatonProofs Changesets SpecDiff ChangesetsProofs DiffLaws DiffProofs Merge SpecMerge SpecEdits MergeStreams MergeSteps MergeUnion MergeConsolidate MergeProofs MergeLaws EditsProofs.

Section Conflicts.
Context {T : Type} {E : Teq T} {O : TeqOk T}.

(** the texts with the first, and with the second sides of the conflicts *)
Definition ofirst (l : list (ofrag T)) : list T :=
  flat_map (fun x => match x with OFrag f => f_insert f | OConf a _ => vseq a end) l.
Definition osecond (l : list (ofrag T)) : list T :=
  flat_map (fun x => match x with OFrag f => f_insert f | OConf _ b => vseq b end) l.
Lemma ofirst_app a b : ofirst (a ++ b) = ofirst a ++ ofirst b. Proof. apply flat_map_app. Qed.
Lemma osecond_app a b : osecond (a ++ b) = osecond a ++ osecond b. Proof. apply flat_map_app. Qed.
Lemma ofirst_frags fs : ofirst (map OFrag fs) = ftext fs.
Proof. unfold ofirst, ftext; now rewrite flat_map_map, flat_map_concat_map. Qed.
Lemma osecond_frags fs : osecond (map OFrag fs) = ftext fs.
Proof. unfold osecond, ftext; now rewrite flat_map_map, flat_map_concat_map. Qed.
Lemma ofirst_conf g : ofirst (map conf g) = joined (map fst g).
Proof. unfold ofirst, joined; now rewrite flat_map_map, flat_map_concat_map, map_map. Qed.
Lemma osecond_conf g : osecond (map conf g) = joined (map snd g).
Proof. unfold osecond, joined; now rewrite flat_map_map, flat_map_concat_map, map_map. Qed.
Lemma ofirst_ofr d : ofirst (map ofr d) = diff_after d.
Proof. unfold ofirst, diff_after; rewrite flat_map_map, !flat_map_concat_map; f_equal; apply map_ext; now intros [t|a b]. Qed.
Lemma osecond_ofr d : osecond (map ofr d) = diff_before d.
Proof. unfold osecond, diff_before; rewrite flat_map_map, !flat_map_concat_map; f_equal; apply map_ext; now intros [t|a b]. Qed.

Lemma pass1_texts l staged : pass1 l staged -> ofirst staged = ofirst l /\ osecond staged = osecond l.
Proof.
  induction 1 as [|g fs r rest d Hg Hr Hf Hn Hb Ha HP (IH1 & IH2)]; [auto|].
  rewrite !ofirst_app, !osecond_app, IH1, IH2, ofirst_ofr, osecond_ofr, ofirst_conf, osecond_conf, Hb, Ha. auto.
Qed.
Lemma pass2_texts l items : pass2 l items -> diff_after items = ofirst l /\ diff_before items = osecond l.
Proof.
  induction 1 as [|g fs r rest Hg Hr Hf HP (IH1 & IH2)]; [auto|].
  rewrite !ofirst_app, !osecond_app, !after_app', !before_app', IH1, IH2, ofirst_conf, osecond_conf, ofirst_frags, osecond_frags.
  assert (A : forall x : list T, diff_after (if nonempty x then [DText x] else []) = x) by (intros [|? ?]; cbn; rewrite ?app_nil_r; reflexivity).
  assert (B : forall x : list T, diff_before (if nonempty x then [DText x] else []) = x) by (intros [|? ?]; cbn; rewrite ?app_nil_r; reflexivity).
  rewrite A, B. destruct (joined (map fst g)), (joined (map snd g)); cbn; rewrite ?app_nil_r; auto.
Qed.
Lemma finish_texts (items : list (ditem T)) : diff_after (finish items) = diff_after items /\ diff_before (finish items) = diff_before items.
Proof. destruct items; auto. Qed.
Lemma no_conflict_texts (r : list (ditem T)) : no_conflict r -> diff_after r = diff_before r.
Proof.
  induction r as [|[t|a b] r IH]; intros H; [reflexivity| |destruct (H a b); left; reflexivity].
  cbn. f_equal. apply IH. intros a b I. apply (H a b). right; exact I.
Qed.

Variable p : list T.
Notation stop := (length p).
Definition fkept (fs : list (frag T)) : list T :=
  flat_map (fun f => match f with FCopy i _ => i | FChange _ _ _ => [] end) fs.
Definition once (x : T) : Prop := ~ exists a b c, p = a ++ x :: b ++ x :: c.
Definition fresh_ok (fs0 fs1 : list (frag T)) : Prop :=
  (forall x, In x (finserted fs0) \/ In x (finserted fs1) -> ~ In x p) /\
  (forall x, In x (fkept fs0) \/ In x (fkept fs1) -> once x).

Lemma seg_once x a b : a <= b -> b <= stop -> once x -> In x (seg p a b) -> ~ In x (seg p b stop).
Proof.
  intros L1 L2 On H1 H2. apply On.
  apply in_split in H1 as (u1 & v1 & E1). apply in_split in H2 as (u2 & v2 & E2).
  exists (seg p 0 a ++ u1), (v1 ++ u2), v2.
  rewrite <- (seg_all p) at 1. rewrite (seg_app p 0 a stop), (seg_app p a b stop), E1, E2 by lia.
  repeat (rewrite <- ?app_assoc; cbn [app]). reflexivity.
Qed.
Lemma ftext_in c g pos fs x : stream p c g pos fs -> In x (ftext fs) -> In x (finserted fs) \/ In x (seg p pos stop).
Proof.
  induction 1 as [|g pos n r Hn Hl HS IH|c pos i n r Hl Hi HS IH]; intros H.
  - destruct H.
  - rewrite ftext_cons in H. cbn [f_insert] in H. apply in_app_or in H as [H|H].
    + right. rewrite (seg_app p pos (pos + n) stop) by lia. apply in_or_app; left; exact H.
    + destruct (IH H) as [I|I]; [left; exact I|right]. rewrite (seg_app p pos (pos + n) stop) by lia. apply in_or_app; right; exact I.
  - rewrite ftext_cons in H. cbn [f_insert] in H. apply in_app_or in H as [H|H].
    + left. cbn. apply in_or_app; left; exact H.
    + destruct (IH H) as [I|I]; [left; cbn; apply in_or_app; right; exact I|right].
      rewrite (seg_app p pos (pos + n) stop) by lia. apply in_or_app; right; exact I.
Qed.
Lemma ofirst_toks l x : In x (ofirst l) -> In x (otoks l).
Proof. intros H. apply in_flat_map in H as (o & I & J). apply in_flat_map. exists o. split; [exact I|]. destruct o; [exact J|apply in_or_app; left; exact J]. Qed.
Lemma osecond_toks l x : In x (osecond l) -> In x (otoks l).
Proof. intros H. apply in_flat_map in H as (o & I & J). apply in_flat_map. exists o. split; [exact I|]. destruct o; [exact J|apply in_or_app; right; exact J]. Qed.

Lemma run_streams pos fs0 fs1 w out : mrun p pos fs0 fs1 w out -> stream p true true pos fs0 /\ stream p true true pos fs1.
Proof. destruct 1; split; try assumption; constructor. Qed.
(** tokens of the parent that are output are still to come *)
Lemma run_ahead pos fs0 fs1 w out x : mrun p pos fs0 fs1 w out -> fresh_ok fs0 fs1 -> In x p -> In x (otoks out) -> In x (seg p pos stop).
Proof.
  intros R (F & _) P H. destruct (run_streams _ _ _ _ _ R) as (S0 & S1).
  destruct (run_tokens p _ _ _ _ _ R x H) as [I|I];
    [destruct (ftext_in _ _ _ _ _ S0 I) as [J|J]|destruct (ftext_in _ _ _ _ _ S1 I) as [J|J]]; try exact J; exfalso; apply (F x); auto.
Qed.

Lemma kept_ctail pos n k r x : k <= n -> pos + n <= stop -> In x (fkept (ctail p pos n k r)) -> In x (seg p pos (pos + n)) \/ In x (fkept r).
Proof.
  unfold ctail. intros Hk Hl. destruct (k <? n) eqn:L; [|auto]. apply Nat.ltb_lt in L. cbn. intros H. apply in_app_or in H as [H|H]; [left|auto].
  rewrite (seg_app p pos (pos + k)) by lia. apply in_or_app; right; exact H.
Qed.
Lemma kept_gtail pos n k r : fkept (gtail p pos n k r) = fkept r.
Proof. unfold gtail; now destruct (k <? n). Qed.

Lemma fresh_step pos fs0 fs1 w o pos' fs0' fs1' w' : mstep p pos fs0 fs1 w o pos' fs0' fs1' w' -> fresh_ok fs0 fs1 -> fresh_ok fs0' fs1'.
Proof.
  intros HM (F & K). split.
  - intros x Hx. apply F. destruct HM; subst; rewrite ?fins_ctail, ?fins_gtail in Hx; unfold finserted in *;
      cbn [flat_map cfrag gfrag app] in *; rewrite ?in_app_iff in *; tauto.
  - intros x Hx. apply K. destruct HM; subst; rewrite ?kept_gtail in Hx; unfold fkept in *;
      cbn [flat_map cfrag gfrag app] in *; fold (fkept r0) in *; fold (fkept r1) in *; rewrite ?in_app_iff in *;
      destruct Hx as [Hx|Hx]; try (apply kept_ctail in Hx; [|lia|lia]); tauto.
Qed.

Lemma first_same {A} (x : A) a b c d : a ++ x :: c = b ++ x :: d -> ~ In x a -> ~ In x b -> a = b.
Proof.
  revert b; induction a as [|y a IH]; intros [|z b] Eq Na Nb; cbn in *; [reflexivity| | |].
  - injection Eq as -> _. exfalso; auto.
  - injection Eq as -> _. exfalso; auto.
  - injection Eq as -> Eq. f_equal. apply (IH b Eq); auto.
Qed.
Lemma seg_cons pos k : 0 < k -> pos + k <= stop -> exists x l, seg p pos (pos + k) = x :: l.
Proof.
  intros Hk Hl. pose proof (seg_length p pos (pos + k) Hl) as L. destruct (seg p pos (pos + k)) as [|x l]; [cbn in L; lia|eauto].
Qed.

(** a kept token of the parent on one side only shows a conflict *)
Lemma lone_token pos k x fs0 fs1 w rest side : mrun p (pos + k) fs0 fs1 w rest -> fresh_ok fs0 fs1 -> pos + k <= stop ->
  once x -> In x (seg p pos (pos + k)) -> side = ofirst rest \/ side = osecond rest -> ~ In x side.
Proof.
  intros R F L On Hx Hs Hi. assert (Ht : In x (otoks rest)) by (destruct Hs as [->| ->]; [apply ofirst_toks|apply osecond_toks]; exact Hi).
  apply (seg_once x pos (pos + k)); auto; try lia. eapply run_ahead; eauto. eapply seg_In; exact Hx.
Qed.

Ltac edits_lia := unfold compatible_edits, e_end, e_pos, e_len, e_ins in *; cbn [fst snd] in *.

Theorem run_conflict pos fs0 fs1 w out : mrun p pos fs0 fs1 w out -> w = false -> fresh_ok fs0 fs1 ->
  ofirst out = osecond out -> compatible (fedits pos fs0) (fedits pos fs1).
Proof.
  induction 1 as [fs1 w S1|fs0 w S0|pos fs0 fs1 w o pos' fs0' fs1' w' rest S0 S1 HM HR IH]; intros Hw HF HE.
  - intros e0 e1 [].
  - intros e0 e1 _ [].
  - assert (HF' := fresh_step _ _ _ _ _ _ _ _ _ HM HF). destruct HF as (Fi & Fk).
    rewrite ofirst_app, osecond_app in HE.
    destruct HM as [pos n0 r0 n1 r1 w k Hk Hn0 Hn1 Hl0 Hl1 R0 R1
      |pos i0 n0 r0 n1 r1 Hn Hn1 Hl1 Hi R0 R1|pos n0 r0 i1 n1 r1 Hn Hn0 Hl0 Hi R0 R1
      |pos i0 n0 r0 n1 r1 Hn Hn1 Hl R0 R1|pos n0 r0 i1 n1 r1 Hn Hn0 Hl R0 R1
      |pos i0 r0 n1 r1 Hl Hi Hn R0 R1|pos n0 r0 i1 r1 Hl Hi Hn R0 R1
      |pos i n r0 r1 Hl Hi R0 R1
      |pos i0 n0 r0 i1 n1 r1 k Hk Hl0 Hl1 Hi0 Hi1 N0 N1 N2 R0 R1
      |pos i0 n0 r0 n1 r1 k v0 v1 Hk Hn1 Hl0 Hl1 Hi Hv0 Hv1 R0 R1
      |pos n0 r0 i1 n1 r1 k v0 v1 Hk Hn0 Hl0 Hl1 Hi Hv0 Hv1 R0 R1
      |pos i0 n0 r0 i1 n1 r1 k v0 v1 Hk Hl0 Hl1 Hi0 Hi1 Hv0 Hv1 R0 R1]; try discriminate; clear Hw;
      cbn [ofirst osecond flat_map vseq] in HE; rewrite ?app_nil_r in HE.
    + cbn [fedits cfrag]. rewrite !fedits_ctail in IH by lia. apply IH; auto. apply app_inv_head in HE. exact HE.
    + cbn [fedits cfrag gfrag]. rewrite fedits_ctail in IH by lia.
      apply app_inv_head in HE. specialize (IH eq_refl HF' HE).
      intros e0 e1 [<-|I0] I1; [|apply IH; assumption].
      pose proof (stream_above p _ _ _ _ R1 e1 I1). right; left. edits_lia. lia.
    + cbn [fedits cfrag gfrag]. rewrite fedits_ctail in IH by lia.
      apply app_inv_head in HE. specialize (IH eq_refl HF' HE).
      intros e0 e1 I0 [<-|I1]; [|apply IH; assumption].
      pose proof (stream_above p _ _ _ _ R0 e0 I0). right; right; left. edits_lia. lia.
    + exfalso. destruct (seg_cons pos n1 Hn1 ltac:(lia)) as (x & l & Es).
      assert (On : once x) by (apply Fk; right; cbn; rewrite Es; left; reflexivity).
      assert (Hx : In x (seg p pos (pos + n1))) by (rewrite Es; left; reflexivity).
      assert (In x (i0 ++ ofirst rest)) as Q by (rewrite HE, Es; left; reflexivity).
      apply in_app_or in Q as [Q|Q].
      * apply (Fi x); [left; cbn; apply in_or_app; left; exact Q|eapply seg_In; exact Hx].
      * refine (lone_token pos n1 x _ _ _ rest (ofirst rest) HR HF' _ On Hx (or_introl eq_refl) Q). lia.
    + exfalso. destruct (seg_cons pos n0 Hn0 ltac:(lia)) as (x & l & Es).
      assert (On : once x) by (apply Fk; left; cbn; rewrite Es; left; reflexivity).
      assert (Hx : In x (seg p pos (pos + n0))) by (rewrite Es; left; reflexivity).
      assert (In x (i1 ++ ofirst rest)) as Q by (rewrite HE, Es; left; reflexivity).
      apply in_app_or in Q as [Q|Q].
      * apply (Fi x); [right; cbn; apply in_or_app; left; exact Q|eapply seg_In; exact Hx].
      * refine (lone_token pos n0 x _ _ _ rest (ofirst rest) HR HF' _ On Hx (or_introl eq_refl) Q). lia.
    + (* an insertion and a removal at one place *)
      cbn [fedits gfrag] in IH |- *; rewrite Nat.add_0_r. cbn [app] in HE. specialize (IH eq_refl HF' HE).
      assert (B0 := stream_above_S p _ _ _ R0); assert (B1 := stream_above_S p _ _ _ R1).
      intros e0 e1 [<-|I0] [<-|I1].
      * right; right; right. edits_lia. auto.
      * pose proof (B1 e1 I1). right; left. edits_lia. lia.
      * pose proof (B0 e0 I0). destruct (IH e0 (pos, i0, n1) I0 (or_introl eq_refl)) as [Q|[Q|[Q|Q]]].
        -- rewrite Q in H. edits_lia. lia.
        -- right; left. edits_lia. lia.
        -- right; right; left. edits_lia. lia.
        -- edits_lia. lia.
      * apply IH; [exact I0|right; exact I1].
    + cbn [fedits gfrag] in IH |- *; rewrite Nat.add_0_r. cbn [app] in HE. specialize (IH eq_refl HF' HE).
      assert (B0 := stream_above_S p _ _ _ R0); assert (B1 := stream_above_S p _ _ _ R1).
      intros e0 e1 [<-|I0] [<-|I1].
      * right; right; right. edits_lia. auto.
      * pose proof (B1 e1 I1). destruct (IH (pos, i1, n0) e1 (or_introl eq_refl) I1) as [Q|[Q|[Q|Q]]].
        -- rewrite <- Q in H. edits_lia. lia.
        -- right; left. edits_lia. lia.
        -- right; right; left. edits_lia. lia.
        -- edits_lia. lia.
      * pose proof (B0 e0 I0). right; right; left. edits_lia. lia.
      * apply IH; [right; exact I0|exact I1].
    + cbn [fedits gfrag]. apply app_inv_head in HE. specialize (IH eq_refl HF' HE).
      assert (B0 := stream_above_S p _ _ _ R0); assert (B1 := stream_above_S p _ _ _ R1).
      assert (A0 := stream_above p _ _ _ _ R0); assert (A1 := stream_above p _ _ _ _ R1).
      intros e0 e1 [<-|I0] [<-|I1].
      * left; reflexivity.
      * pose proof (B1 e1 I1). pose proof (A1 e1 I1). right; left. edits_lia. lia.
      * pose proof (B0 e0 I0). pose proof (A0 e0 I0). right; right; left. edits_lia. lia.
      * apply IH; assumption.
    + (* a conflict: what follows tells the sides apart *)
      exfalso. clear IH.
      assert (Hi0p : forall x, In x i0 -> ~ In x p) by (intros x Hx; apply Fi; left; cbn; apply in_or_app; left; exact Hx).
      assert (Hi1p : forall x, In x i1 -> ~ In x p) by (intros x Hx; apply Fi; right; cbn; apply in_or_app; left; exact Hx).
      assert (Kr0 : forall x, In x (fkept r0) -> once x) by (intros x Hx; apply Fk; left; exact Hx).
      assert (Kr1 : forall x, In x (fkept r1) -> once x) by (intros x Hx; apply Fk; right; exact Hx).
      destruct (Nat.lt_trichotomy n0 n1) as [L|[L|L]].
      * replace (Nat.min n0 n1) with n0 in Hk by lia. subst k. unfold gtail in HR, HF'.
        rewrite Nat.ltb_irrefl in HR, HF'. rewrite (proj2 (Nat.ltb_lt n0 n1) L) in HR, HF'.
        inversion R0 as [? ? A B C|? ? m0 r0' Hm0 Hm0l R0'|]; subst; [lia|].
        inversion HR as [| |? ? ? ? o2 pos2 f0 f1 w2 rest2 S0' S1' HM2 HR2]; subst.
        assert (HF2 := fresh_step _ _ _ _ _ _ _ _ _ HM2 HF').
        inversion HM2; subst; try discriminate.
        set (k2 := Nat.min m0 (n1 - n0)) in *. assert (0 < k2) as Hk2 by (unfold k2; lia).
        destruct (seg_cons (pos + n0) k2 Hk2 ltac:(unfold k2; lia)) as (x & l & Es).
        assert (Hx : In x (seg p (pos + n0) (pos + n0 + k2))) by (rewrite Es; left; reflexivity).
        assert (On : once x).
        { apply Kr0. cbn. apply in_or_app; left. rewrite (seg_app p (pos + n0) (pos + n0 + k2)) by (unfold k2; lia). apply in_or_app; left; exact Hx. }
        rewrite ofirst_app, osecond_app in HE. cbn [ofirst osecond flat_map vseq] in HE. rewrite ?app_nil_r in HE.
        match goal with H : vseq v0 = _ |- _ => rewrite H in HE end. match goal with H : vseq v1 = _ |- _ => rewrite H in HE end.
        assert (In x (i1 ++ [] ++ osecond rest2)) as Q by (rewrite <- HE; apply in_or_app; right; apply in_or_app; left; exact Hx).
        apply in_app_or in Q as [Q|Q]; [apply (Hi1p x Q); eapply seg_In; exact Hx|].
        refine (lone_token (pos + n0) k2 x _ _ _ rest2 (osecond rest2) HR2 HF2 _ On Hx (or_intror eq_refl) Q). unfold k2; lia.
      * subst n1. rewrite Nat.min_id in Hk. subst k. unfold gtail in HR, HF'. rewrite Nat.ltb_irrefl in HR, HF'.
        inversion R0 as [? ? A B C|? ? m0 r0' Hm0 Hm0l R0'|]; subst.
        -- inversion R1 as [? ? A1 B1 C1|? ? m1 r1' Hm1 Hm1l R1'|]; subst; [|lia].
           inversion HR; subst; try match goal with H : mstep _ _ _ _ _ _ _ _ _ _ |- _ => inversion H end; cbn in HE; rewrite !app_nil_r in HE; apply N2; auto.
        -- inversion R1 as [? ? A1 B1 C1|? ? m1 r1' Hm1 Hm1l R1'|]; subst; [lia|].
           inversion HR as [| |? ? ? ? o2 pos2 f0 f1 w2 rest2 S0' S1' HM2 HR2]; subst.
           inversion HM2; subst; try discriminate.
           rewrite ofirst_app, osecond_app in HE. cbn [ofirst osecond flat_map f_insert cfrag] in HE. rewrite ?app_nil_r in HE.
           destruct (seg_cons (pos + n0) (Nat.min m0 m1) ltac:(lia) ltac:(lia)) as (x & l & Es).
           assert (Hx : In x p) by (eapply seg_In; rewrite Es; left; reflexivity).
           rewrite Es in HE. cbn [app] in HE. apply N2. split; [|reflexivity].
           apply (first_same x _ _ _ _ HE); intros Q; [apply (Hi0p x Q Hx)|apply (Hi1p x Q Hx)].
      * replace (Nat.min n0 n1) with n1 in Hk by lia. subst k. unfold gtail in HR, HF'.
        rewrite Nat.ltb_irrefl in HR, HF'. rewrite (proj2 (Nat.ltb_lt n1 n0) L) in HR, HF'.
        inversion R1 as [? ? A B C|? ? m1 r1' Hm1 Hm1l R1'|]; subst; [lia|].
        inversion HR as [| |? ? ? ? o2 pos2 f0 f1 w2 rest2 S0' S1' HM2 HR2]; subst.
        assert (HF2 := fresh_step _ _ _ _ _ _ _ _ _ HM2 HF').
        inversion HM2; subst; try discriminate.
        set (k2 := Nat.min (n0 - n1) m1) in *. assert (0 < k2) as Hk2 by (unfold k2; lia).
        destruct (seg_cons (pos + n1) k2 Hk2 ltac:(unfold k2; lia)) as (x & l & Es).
        assert (Hx : In x (seg p (pos + n1) (pos + n1 + k2))) by (rewrite Es; left; reflexivity).
        assert (On : once x).
        { apply Kr1. cbn. apply in_or_app; left. rewrite (seg_app p (pos + n1) (pos + n1 + k2)) by (unfold k2; lia). apply in_or_app; left; exact Hx. }
        rewrite ofirst_app, osecond_app in HE. cbn [ofirst osecond flat_map vseq] in HE. rewrite ?app_nil_r in HE.
        match goal with H : vseq v0 = _ |- _ => rewrite H in HE end. match goal with H : vseq v1 = _ |- _ => rewrite H in HE end.
        assert (In x (i0 ++ [] ++ ofirst rest2)) as Q by (rewrite HE; apply in_or_app; right; apply in_or_app; left; exact Hx).
        apply in_app_or in Q as [Q|Q]; [apply (Hi0p x Q); eapply seg_In; exact Hx|].
        refine (lone_token (pos + n1) k2 x _ _ _ rest2 (ofirst rest2) HR2 HF2 _ On Hx (or_introl eq_refl) Q). unfold k2; lia.
Qed.
End Conflicts.

Section Merged.
Context {T : Type} {E : Teq T} {O : TeqOk T}.
Implicit Types s : list (ditem T).

Lemma fkept_frag_of s : fkept (map frag_of s) = kept s.
Proof. unfold fkept, kept; rewrite flat_map_map, !flat_map_concat_map; f_equal; apply map_ext; now intros [t|a b]. Qed.
Lemma filter_kept s x : ~ In x (taken s) -> filter (teq x) (diff_before s) = filter (teq x) (kept s).
Proof.
  induction s as [|[t|a b] s IH]; intros N; cbn [diff_before kept taken flat_map app] in *; [reflexivity| |]; rewrite filter_app.
  - fold (diff_before s) (kept s) (taken s) in *. rewrite filter_app, IH by exact N. reflexivity.
  - fold (diff_before s) (kept s) (taken s) in *. rewrite IH by (intros I; apply N, in_or_app; right; exact I).
    replace (filter (teq x) b) with (@nil T); [reflexivity|]. symmetry.
    assert (Nb : ~ In x b) by (intros I; apply N, in_or_app; left; exact I). clear - O Nb.
    induction b as [|y b IH]; [reflexivity|]. cbn. destruct (teq_spec x y) as [->|]; [destruct Nb; left; reflexivity|].
    apply IH. intros I; apply Nb; right; exact I.
Qed.
Lemma filter_nodup (l : list T) x : NoDup l -> length (filter (teq x) l) <= 1.
Proof.
  induction 1 as [|y l N H IH]; cbn; [lia|]. destruct (teq_spec x y) as [->|]; [|exact IH]. cbn.
  replace (filter (teq y) l) with (@nil T); [cbn; lia|]. symmetry. clear - O N. induction l as [|z l IH]; [reflexivity|].
  cbn. destruct (teq_spec y z) as [->|]; [destruct N; left; reflexivity|]. apply IH. intros I; apply N; right; exact I.
Qed.
Lemma kept_once s x : distinct_edits s -> In x (kept s) -> once (diff_before s) x.
Proof.
  intros (_ & N & _ & R) K (a & b & c & Eq).
  assert (Nt : ~ In x (taken s)) by (intros I; apply (R x I), kept_after; exact K).
  pose proof (filter_nodup _ x N) as L. rewrite <- filter_kept, Eq in L by exact Nt.
  rewrite filter_app in L. cbn in L. rewrite filter_app in L. cbn in L.
  destruct (teq_spec x x) as [_|F]; [|congruence]. rewrite app_length in L. cbn in L. rewrite app_length in L. cbn in L. lia.
Qed.

(** C78 *)
Theorem merge_conflict_iff k s0 s1 r : distinct_edits s0 -> distinct_edits s1 -> diff_before s0 = diff_before s1 ->
  merge_token_sequence k (diff_before s0) (diff_after s0) (diff_after s1) = Ok r ->
  (no_conflict r <-> compatible (edits 0 s0) (edits 0 s1)).
Proof.
  intros D0 D1 Eq Hr. split.
  - intros NC. destruct (merge_shape k (diff_before s0) (diff_after s0) (diff_after s1)) as (d0 & d1 & out & E0 & E1 & _ & _ & S0 & S1 & HR & HK & _).
    rewrite diff_finds_edits in E0 by exact D0. injection E0 as <-.
    rewrite Eq, diff_finds_edits in E1 by exact D1. injection E1 as <-.
    rewrite HK in Hr. destruct (consolidate_ok k out) as [(staged & items & P1 & P2 & C & _)|[_ C]]; rewrite C in Hr; [|discriminate].
    injection Hr as <-. apply no_conflict_texts in NC.
    destruct (pass1_texts _ _ P1) as (A1 & A2). destruct (pass2_texts _ _ P2) as (B1 & B2). destruct (finish_texts items) as (F1 & F2).
    rewrite F1, F2, B1, B2, A1, A2 in NC.
    pose proof (run_conflict _ _ _ _ _ _ HR eq_refl) as Q. rewrite !fedits_frag_of in Q. apply Q; [|exact NC].
    split.
    + rewrite !finserted_frag_of. intros x [I|I] P; [destruct D0 as (_ & _ & Di & _)|destruct D1 as (_ & _ & Di & _); rewrite Eq in P]; apply (Di x I P).
    + rewrite !fkept_frag_of. intros x [I|I]; [apply kept_once; assumption|rewrite Eq; apply kept_once; assumption].
  - intros C. rewrite (merge_of_edits k s0 s1 D0 D1 Eq C) in Hr. injection Hr as <-. intros a b [I|[]]. discriminate.
Qed.
End Merged.
