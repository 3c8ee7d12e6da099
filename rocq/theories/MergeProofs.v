(** The results about [merge_token_sequence]. *)
From Verif Require Import Base Strings SpecSeq AutomatonProofs Changesets SpecDiff ChangesetsProofs DiffLaws DiffProofs Merge SpecMerge MergeStreams MergeSteps MergeUnion MergeConsolidate.

Section Runs.
Context {T : Type} {E : Teq T} {O : TeqOk T}.
Variable p : list T.

Lemma seg_nonempty pos k : 0 < k -> pos + k <= length p -> nonempty (seg p pos (pos + k)) = true.
Proof.
  intros Hk Hl; destruct (seg p pos (pos + k)) eqn:H; [|reflexivity].
  apply (f_equal (@length T)) in H; rewrite seg_length in H by lia; cbn in H; lia.
Qed.

(** ** Separation of conflicts *)
Definition heads_change (fs0 fs1 : list (frag T)) : Prop :=
  exists i0 d0 n0 r0 i1 d1 n1 r1, fs0 = FChange i0 d0 n0 :: r0 /\ fs1 = FChange i1 d1 n1 :: r1 /\
    ((i0 = [] /\ 0 < n0) \/ (i1 = [] /\ 0 < n1)).
Definition heads_foreign (fs0 fs1 : list (frag T)) : Prop :=
  (exists i d n r j m r', fs0 = FChange i d n :: r /\ fs1 = FCopy j m :: r' /\ i <> []) \/
  (exists i d n r j m r', fs1 = FChange i d n :: r /\ fs0 = FCopy j m :: r' /\ i <> []).
Definition no_change (fs : list (frag T)) : Prop := match fs with FChange _ _ _ :: _ => False | _ => True end.

Lemma stream_no_change c pos fs : stream p c false pos fs -> no_change fs.
Proof. inversion 1; exact I. Qed.
Lemma stream_must_change pos fs : stream p false true pos fs -> pos < length p ->
  exists i n r, fs = gfrag p pos i n :: r.
Proof. intros H Hp; inversion H; subst; [lia|]; eexists _, _, _; reflexivity. Qed.
Lemma stream_must_copy pos fs : stream p true false pos fs -> pos < length p ->
  exists n r, fs = cfrag p pos n :: r.
Proof. intros H Hp; inversion H; subst; [lia|]; eexists _, _; reflexivity. Qed.

Ltac five := split; [|split; [|split; [|split]]].
Theorem run_sep pos fs0 fs1 w out : mrun p pos fs0 fs1 w out ->
  (w = false -> sep SA out) /\
  (w = true -> sep SB out) /\
  (w = false -> heads_change fs0 fs1 -> sep SB out) /\
  (w = false -> heads_foreign fs0 fs1 -> sep SB out) /\
  (w = false -> no_change fs0 -> no_change fs1 -> sep SC out).
Proof.
  induction 1 as [fs1 w S1|fs0 w S0|pos fs0 fs1 w o pos' fs0' fs1' w' rest S0 S1 HM HR (IA & IB & IZ & IX & IY)].
  - apply stream_end in S1; destruct S1 as [->|[i [Hi ->]]]; cbn.
    + repeat split.
    + destruct i; [now elim Hi|]; destruct w; cbn; repeat split; intros; auto; try discriminate; tauto.
  - apply stream_end in S0; destruct S0 as [->|[i [Hi ->]]]; cbn.
    + repeat split.
    + destruct i; [now elim Hi|]; destruct w; cbn; repeat split; intros; auto; try discriminate; tauto.
  - assert (ZX : forall A B : Prop, (A -> False) -> A -> B) by tauto.
    destruct HM as [pos n0 r0 n1 r1 w k Hk Hn0 Hn1 Hl0 Hl1 R0 R1
      |pos i0 n0 r0 n1 r1 Hn Hn1 Hl1 Hi R0 R1|pos n0 r0 i1 n1 r1 Hn Hn0 Hl0 Hi R0 R1
      |pos i0 n0 r0 n1 r1 Hn Hn1 Hl R0 R1|pos n0 r0 i1 n1 r1 Hn Hn0 Hl R0 R1
      |pos i0 r0 n1 r1 Hl Hi Hn R0 R1|pos n0 r0 i1 r1 Hl Hi Hn R0 R1
      |pos i n r0 r1 Hl Hi R0 R1
      |pos i0 n0 r0 i1 n1 r1 k Hk Hl0 Hl1 Hi0 Hi1 N0 N1 N2 R0 R1
      |pos i0 n0 r0 n1 r1 k v0 v1 Hk Hn1 Hl0 Hl1 Hi Hv0 Hv1 R0 R1
      |pos n0 r0 i1 n1 r1 k v0 v1 Hk Hn0 Hl0 Hl1 Hi Hv0 Hv1 R0 R1
      |pos i0 n0 r0 i1 n1 r1 k v0 v1 Hk Hl0 Hl1 Hi0 Hi1 Hv0 Hv1 R0 R1].
    + (* copies *)
      assert (Q : forall st, sep st ([OFrag (cfrag p pos k)] ++ rest)).
      { intros st; cbn [app sep cfrag f_insert]; rewrite seg_nonempty by lia; auto. }
      five; try (now intros _ []); try (now intros _ _ []); auto.
    + (* change within copy *)
      assert (Q : sep SA ([OFrag (gfrag p pos i0 n0)] ++ rest)).
      { cbn [app sep gfrag f_insert]; destruct (nonempty i0); auto. }
      assert (Q2 : i0 <> [] -> sep SB ([OFrag (gfrag p pos i0 n0)] ++ rest)).
      { intros C; cbn [app sep gfrag f_insert]; destruct i0; [now elim C|cbn; auto]. }
      five; try (now intros _ []); try (now intros _ _ []); auto; try discriminate.
      * intros _ (? & ? & ? & ? & ? & ? & ? & ? & _ & C & _); discriminate.
      * intros _ [(? & ? & ? & ? & ? & ? & ? & C & _ & D)|(? & ? & ? & ? & ? & ? & ? & C & _ & D)]; [|discriminate].
        injection C as -> _ _ _; auto.
    + assert (Q : sep SA ([OFrag (gfrag p pos i1 n1)] ++ rest)).
      { cbn [app sep gfrag f_insert]; destruct (nonempty i1); auto. }
      assert (Q2 : i1 <> [] -> sep SB ([OFrag (gfrag p pos i1 n1)] ++ rest)).
      { intros C; cbn [app sep gfrag f_insert]; destruct i1; [now elim C|cbn; auto]. }
      five; try (now intros _ []); try (now intros _ _ []); auto; try discriminate.
      * intros _ (? & ? & ? & ? & ? & ? & ? & ? & C & _ & _); discriminate.
      * intros _ [(? & ? & ? & ? & ? & ? & ? & C & _ & D)|(? & ? & ? & ? & ? & ? & ? & C & _ & D)]; [discriminate|].
        injection C as -> _ _ _; auto.
    + (* change longer than copy *)
      assert (Z : heads_change (gtail p pos n0 n1 r0) r1).
      { destruct (stream_must_change _ _ R1) as [i [n [r ->]]]; [lia|].
        unfold gtail; destruct (Nat.ltb_spec n1 n0); [|lia].
        eexists [], _, _, _, _, _, _, _; split; [reflexivity|split; [reflexivity|left; split; [reflexivity|lia]]]. }
      specialize (IZ eq_refl Z).
      five; try (now intros _ []); try (now intros _ _ []); try discriminate; intros; cbn [app sep]; split; (discriminate || assumption).
    + assert (Z : heads_change r0 (gtail p pos n1 n0 r1)).
      { destruct (stream_must_change _ _ R0) as [i [n [r ->]]]; [lia|].
        unfold gtail; destruct (Nat.ltb_spec n0 n1); [|lia].
        eexists _, _, _, _, [], _, _, _; split; [reflexivity|split; [reflexivity|right; split; [reflexivity|lia]]]. }
      specialize (IZ eq_refl Z).
      five; try (now intros _ []); try (now intros _ _ []); try discriminate; intros; cbn [app sep]; split; (discriminate || assumption).
    + (* composable *)
      assert (X : heads_foreign r0 (gfrag p pos i0 n1 :: r1)).
      { destruct (stream_must_copy _ _ R0) as [n [r ->]]; [lia|].
        right; eexists _, _, _, _, _, _, _; split; [reflexivity|split; [reflexivity|exact Hi]]. }
      cbn [app]; five; try (now intros _ []); try (now intros _ _ []); auto; try discriminate.
    + assert (X : heads_foreign (gfrag p pos i1 n0 :: r0) r1).
      { destruct (stream_must_copy _ _ R1) as [n [r ->]]; [lia|].
        left; eexists _, _, _, _, _, _, _; split; [reflexivity|split; [reflexivity|exact Hi]]. }
      cbn [app]; five; try (now intros _ []); try (now intros _ _ []); auto; try discriminate.
    + (* identical *)
      apply stream_no_change in R0; apply stream_no_change in R1.
      five; try (now intros _ []); try (now intros _ _ []); try discriminate.
      * intros _; cbn [app sep gfrag f_insert]; destruct (nonempty i); auto.
      * intros _ (? & ? & ? & ? & ? & ? & ? & ? & C & D & F).
        injection C as -> _ _ _; injection D as -> _ _ _; destruct F as [[-> _]|[-> _]]; cbn; auto.
      * intros _ [(? & ? & ? & ? & ? & ? & ? & _ & C & _)|(? & ? & ? & ? & ? & ? & ? & _ & C & _)]; discriminate.
    + specialize (IB eq_refl); five; try (now intros _ []); try (now intros _ _ []); try discriminate; intros; cbn [app sep]; split; (discriminate || assumption).
    + specialize (IB eq_refl); five; try (now intros _ []); try (now intros _ _ []); try discriminate; intros; cbn [app sep]; split; (discriminate || assumption).
    + specialize (IB eq_refl); five; try (now intros _ []); try (now intros _ _ []); try discriminate; intros; cbn [app sep]; split; (discriminate || assumption).
    + specialize (IB eq_refl); five; try (now intros _ []); try (now intros _ _ []); try discriminate; intros; cbn [app sep]; split; (discriminate || assumption).
Qed.

(** ** Text of heads and tails *)
Lemma ftext_cons f r : @ftext T (f :: r) = f_insert f ++ ftext r.
Proof. reflexivity. Qed.
Lemma ftext_ctail pos n k r : k <= n -> pos + n <= length p ->
  ftext (cfrag p pos n :: r) = seg p pos (pos + k) ++ ftext (ctail p pos n k r).
Proof.
  intros Hk Hl; rewrite ftext_cons; cbn [f_insert cfrag]; unfold ctail; destruct (Nat.ltb_spec k n).
  - rewrite ftext_cons, app_assoc; f_equal; cbn [f_insert]; apply seg_app; lia.
  - assert (k = n) as -> by lia; reflexivity.
Qed.
Lemma ftext_gtail pos i n k r : ftext (gfrag p pos i n :: r) = i ++ ftext (gtail p pos n k r).
Proof. rewrite ftext_cons; cbn [f_insert gfrag]; unfold gtail; now destruct (k <? n). Qed.

(** ** Merge invents nothing *)
Theorem run_tokens pos fs0 fs1 w out : mrun p pos fs0 fs1 w out ->
  forall x, In x (otoks out) -> In x (ftext fs0) \/ In x (ftext fs1).
Proof.
  induction 1 as [fs1 w S1|fs0 w S0|pos fs0 fs1 w o pos' fs0' fs1' w' rest S0 S1 HM HR IH]; intros x Hx.
  - right; apply stream_end in S1; destruct S1 as [->|[i [Hi ->]]]; [exact Hx|]; destruct w; exact Hx.
  - left; apply stream_end in S0; destruct S0 as [->|[i [Hi ->]]]; [exact Hx|].
    destruct w; [|exact Hx]; cbn in *; rewrite !app_nil_r in *; exact Hx.
  - rewrite otoks_app, in_app_iff in Hx; specialize (IH x).
    destruct HM as [pos n0 r0 n1 r1 w k Hk Hn0 Hn1 Hl0 Hl1 R0 R1
      |pos i0 n0 r0 n1 r1 Hn Hn1 Hl1 Hi R0 R1|pos n0 r0 i1 n1 r1 Hn Hn0 Hl0 Hi R0 R1
      |pos i0 n0 r0 n1 r1 Hn Hn1 Hl R0 R1|pos n0 r0 i1 n1 r1 Hn Hn0 Hl R0 R1
      |pos i0 r0 n1 r1 Hl Hi Hn R0 R1|pos n0 r0 i1 r1 Hl Hi Hn R0 R1
      |pos i n r0 r1 Hl Hi R0 R1
      |pos i0 n0 r0 i1 n1 r1 k Hk Hl0 Hl1 Hi0 Hi1 N0 N1 N2 R0 R1
      |pos i0 n0 r0 n1 r1 k v0 v1 Hk Hn1 Hl0 Hl1 Hi Hv0 Hv1 R0 R1
      |pos n0 r0 i1 n1 r1 k v0 v1 Hk Hn0 Hl0 Hl1 Hi Hv0 Hv1 R0 R1
      |pos i0 n0 r0 i1 n1 r1 k v0 v1 Hk Hl0 Hl1 Hi0 Hi1 Hv0 Hv1 R0 R1];
      unfold otoks in Hx at 1; cbn [flat_map f_insert cfrag gfrag] in Hx;
      rewrite ?app_nil_r, ?Hv0, ?Hv1 in Hx; cbn [vseq] in Hx; rewrite ?in_app_iff in Hx.
    + rewrite (ftext_ctail pos n0 k), (ftext_ctail pos n1 k), !in_app_iff by lia; tauto.
    + rewrite (ftext_ctail pos n1 n0), ftext_cons, !in_app_iff by lia; cbn [f_insert gfrag]; tauto.
    + rewrite (ftext_ctail pos n0 n1), ftext_cons, !in_app_iff by lia; cbn [f_insert gfrag]; tauto.
    + rewrite (ftext_gtail pos i0 n0 n1), ftext_cons, !in_app_iff by lia; cbn [f_insert cfrag]; tauto.
    + rewrite (ftext_gtail pos i1 n1 n0), ftext_cons, !in_app_iff by lia; cbn [f_insert cfrag]; tauto.
    + rewrite !ftext_cons, !in_app_iff in *; cbn [f_insert gfrag] in *; cbn in Hx; tauto.
    + rewrite !ftext_cons, !in_app_iff in *; cbn [f_insert gfrag] in *; cbn in Hx; tauto.
    + rewrite !ftext_cons, !in_app_iff; cbn [f_insert gfrag]; tauto.
    + rewrite (ftext_gtail pos i0 n0 k), (ftext_gtail pos i1 n1 k), !in_app_iff; tauto.
    + rewrite (ftext_gtail pos i0 n0 k), (ftext_ctail pos n1 k), !in_app_iff by lia; tauto.
    + rewrite (ftext_ctail pos n0 k), (ftext_gtail pos i1 n1 k), !in_app_iff by lia; tauto.
    + rewrite (ftext_gtail pos i0 n0 k), (ftext_gtail pos i1 n1 k), !in_app_iff; tauto.
Qed.

(** ** Merge loses no insertion *)
Definition finserted (fs : list (frag T)) : list T :=
  flat_map (fun f => match f with FCopy _ _ => [] | FChange i _ _ => i end) fs.
Lemma fins_ctail pos n k r : finserted (ctail p pos n k r) = finserted r.
Proof. unfold ctail; now destruct (k <? n). Qed.
Lemma fins_gtail pos n k r : finserted (gtail p pos n k r) = finserted r.
Proof. unfold gtail; now destruct (k <? n). Qed.
Theorem run_inserted pos fs0 fs1 w out : mrun p pos fs0 fs1 w out ->
  forall x, In x (finserted fs0) \/ In x (finserted fs1) -> In x (otoks out).
Proof.
  induction 1 as [fs1 w S1|fs0 w S0|pos fs0 fs1 w o pos' fs0' fs1' w' rest S0 S1 HM HR IH]; intros x Hx.
  - destruct Hx as [[]|Hx]; apply stream_end in S1; destruct S1 as [->|[i [Hi ->]]]; [exact Hx|]; destruct w; exact Hx.
  - destruct Hx as [Hx|[]]; apply stream_end in S0; destruct S0 as [->|[i [Hi ->]]]; [exact Hx|].
    destruct w; [|exact Hx]; cbn in *; rewrite !app_nil_r in *; exact Hx.
  - rewrite otoks_app, in_app_iff; specialize (IH x).
    destruct HM as [pos n0 r0 n1 r1 w k Hk Hn0 Hn1 Hl0 Hl1 R0 R1
      |pos i0 n0 r0 n1 r1 Hn Hn1 Hl1 Hi R0 R1|pos n0 r0 i1 n1 r1 Hn Hn0 Hl0 Hi R0 R1
      |pos i0 n0 r0 n1 r1 Hn Hn1 Hl R0 R1|pos n0 r0 i1 n1 r1 Hn Hn0 Hl R0 R1
      |pos i0 r0 n1 r1 Hl Hi Hn R0 R1|pos n0 r0 i1 r1 Hl Hi Hn R0 R1
      |pos i n r0 r1 Hl Hi R0 R1
      |pos i0 n0 r0 i1 n1 r1 k Hk Hl0 Hl1 Hi0 Hi1 N0 N1 N2 R0 R1
      |pos i0 n0 r0 n1 r1 k v0 v1 Hk Hn1 Hl0 Hl1 Hi Hv0 Hv1 R0 R1
      |pos n0 r0 i1 n1 r1 k v0 v1 Hk Hn0 Hl0 Hl1 Hi Hv0 Hv1 R0 R1
      |pos i0 n0 r0 i1 n1 r1 k v0 v1 Hk Hl0 Hl1 Hi0 Hi1 Hv0 Hv1 R0 R1];
      rewrite ?fins_ctail, ?fins_gtail in IH;
      unfold otoks at 1; cbn [flat_map f_insert cfrag gfrag];
      rewrite ?app_nil_r, ?Hv0, ?Hv1; cbn [vseq]; rewrite ?in_app_iff;
      unfold finserted in *; cbn [flat_map cfrag gfrag] in *; rewrite ?in_app_iff in *; cbn [app In] in *; tauto.
Qed.

(** ** Sides *)
(** [es'] comes from [es] by dropping edits and cutting heads off edits up to [pos] *)
Definition cut (pos : nat) (es es' : list (edit T)) : Prop :=
  forall e', In e' es' -> exists e, In e es /\ e_end e' = e_end e /\
    (e_pos e' = e_pos e \/ (e_pos e <= e_pos e' /\ e_pos e' = pos /\ 0 < e_len e')).
Lemma K_cut pos es0 es1 es0' es1' : reach_free es0 es1 -> cover_free es0 es1 ->
  cut pos es0 es0' -> cut pos es1 es1' -> above pos es0' -> above pos es1' -> reach_free es0' es1' /\ cover_free es0' es1'.
Proof.
  intros H1 H2 C0 C1 A0 A1; split.
  - intros e0' e1' I0 I1 L1 L2.
    specialize (A0 _ I0); specialize (A1 _ I1).
    destruct (C0 _ I0) as [e0 [J0 [E0 P0]]]; destruct (C1 _ I1) as [e1 [J1 [E1 P1]]].
    apply (H1 e0 e1); auto; unfold e_end in *; lia.
  - intros e0' e1' e1'' I0 I1 I2 L0 L1 L2 L3.
    pose proof (A0 _ I0); pose proof (A1 _ I1); pose proof (A1 _ I2).
    destruct (C0 _ I0) as [e0 [J0 [E0 P0]]]; destruct (C1 _ I1) as [e1 [J1 [E1 P1]]]; destruct (C1 _ I2) as [e2 [J2 [E2 P2]]].
    apply (H2 e0 e1 e2); auto; unfold e_end in *; try lia.
Qed.
Lemma cut_incl pos es es' : (forall e, In e es' -> In e es) -> cut pos es es'.
Proof. intros H e' He'; exists e'; auto. Qed.
Lemma cut_ctail pos n k r : k <= n -> cut (pos + k) (fedits pos (cfrag p pos n :: r)) (fedits (pos + k) (ctail p pos n k r)).
Proof. intros H; apply cut_incl; rewrite fedits_ctail by exact H; auto. Qed.
Lemma cut_gtail pos i n k r : k <= n ->
  cut (pos + k) (fedits pos (gfrag p pos i n :: r)) (fedits (pos + k) (gtail p pos n k r)).
Proof.
  intros H e' He'; unfold gtail in He'; destruct (Nat.ltb_spec k n); cbn [fedits gfrag] in *.
  - destruct He' as [<-|He'].
    + exists (pos, i, n); split; [now left|]; unfold e_end, e_pos, e_len; cbn [fst snd]; lia.
    + exists e'; split; [right; now replace (pos + n) with (pos + k + (n - k)) by lia|auto].
  - exists e'; split; [right; now replace (pos + n) with (pos + k) by lia|auto].
Qed.
Lemma cut_drop pos q i n r : cut q (fedits pos (gfrag p pos i n :: r)) (fedits (pos + n) r).
Proof. apply cut_incl; intros e He; now right. Qed.
Lemma cut_cdrop pos q n r : cut q (fedits pos (cfrag p pos n :: r)) (fedits (pos + n) r).
Proof. apply cut_incl; auto. Qed.
Lemma cut_swap pos q i j n r : cut q (fedits pos (gfrag p pos i n :: r)) (fedits pos (gfrag p pos j n :: r)).
Proof.
  intros e' [<-|He']; [exists (pos, i, n); split; [now left|auto]|exists e'; split; [now right|auto]].
Qed.

Definition sides_ok (out : list (ofrag T)) (t0 t1 : list T) : Prop :=
  subseq (oside1 out) t0 /\ subseq (oside2 out) t1.
Lemma sides_conf v0 v1 rest a b t0 t1 : vseq v0 = a -> vseq v1 = b -> sides_ok rest t0 t1 ->
  sides_ok ([OConf v0 v1] ++ rest) (a ++ t0) (b ++ t1).
Proof.
  intros <- <- [H1 H2]; split; rewrite ?oside1_app, ?oside2_app; cbn; rewrite app_nil_r;
    apply subseq_app; auto using subseq_refl.
Qed.
Lemma sides_frag f rest t0 t1 : sides_ok rest t0 t1 -> sides_ok ([OFrag f] ++ rest) t0 t1.
Proof. auto. Qed.
Lemma sides_grow rest t0 t1 a b : sides_ok rest t0 t1 -> sides_ok rest (a ++ t0) (b ++ t1).
Proof. intros [H1 H2]; split; [apply (subseq_app [] a)|apply (subseq_app [] b)]; auto; constructor. Qed.

Definition foreign0 (pos : nat) (fs0 fs1 : list (frag T)) : Prop :=
  exists i n r m r', fs0 = gfrag p pos i n :: r /\ fs1 = cfrag p pos m :: r' /\ n <= m.
Definition foreign1 (pos : nat) (fs0 fs1 : list (frag T)) : Prop :=
  exists i n r m r', fs1 = gfrag p pos i n :: r /\ fs0 = cfrag p pos m :: r' /\ n <= m.

Theorem run_sides pos fs0 fs1 w out : mrun p pos fs0 fs1 w out ->
  reach_free (fedits pos fs0) (fedits pos fs1) -> cover_free (fedits pos fs0) (fedits pos fs1) ->
  sides_ok out (ftext fs0) (ftext fs1) /\
  (w = false -> foreign0 pos fs0 fs1 -> sides_ok out (ftext (tl fs0)) (ftext fs1)) /\
  (w = false -> foreign1 pos fs0 fs1 -> sides_ok out (ftext fs0) (ftext (tl fs1))).
Proof.
  induction 1 as [fs1 w S1|fs0 w S0|pos fs0 fs1 w o pos' fs0' fs1' w' rest S0 S1 HM HR IH]; intros HK1 HK2.
  - split; [|split].
    + apply stream_end in S1; destruct S1 as [->|[i [Hi ->]]]; destruct w; cbn; split; cbn; try constructor; rewrite ?app_nil_r; apply subseq_refl.
    + intros _ (? & ? & ? & ? & ? & C & _); discriminate.
    + intros _ (? & ? & ? & ? & ? & _ & C & _); discriminate.
  - split; [|split].
    + apply stream_end in S0; destruct S0 as [->|[i [Hi ->]]]; destruct w; cbn; split; cbn; try constructor; rewrite ?app_nil_r; apply subseq_refl.
    + intros _ (? & ? & ? & ? & ? & _ & C & _); discriminate.
    + intros _ (? & ? & ? & ? & ? & C & _); discriminate.
  - destruct (mstep_streams _ _ _ _ _ _ _ _ _ _ HM) as [S0' S1'].
    assert (A0 := stream_above _ _ _ _ _ S0'); assert (A1 := stream_above _ _ _ _ _ S1').
    assert (KC : cut pos' (fedits pos fs0) (fedits pos' fs0') -> cut pos' (fedits pos fs1) (fedits pos' fs1') ->
      sides_ok rest (ftext fs0') (ftext fs1') /\
      (w' = false -> foreign0 pos' fs0' fs1' -> sides_ok rest (ftext (tl fs0')) (ftext fs1')) /\
      (w' = false -> foreign1 pos' fs0' fs1' -> sides_ok rest (ftext fs0') (ftext (tl fs1')))).
    { intros C0 C1; destruct (K_cut _ _ _ _ _ HK1 HK2 C0 C1 A0 A1) as [K1' K2']; auto. }
    clear IH A0 A1.
    destruct HM as [pos n0 r0 n1 r1 w k Hk Hn0 Hn1 Hl0 Hl1 R0 R1
      |pos i0 n0 r0 n1 r1 Hn Hn1 Hl1 Hi R0 R1|pos n0 r0 i1 n1 r1 Hn Hn0 Hl0 Hi R0 R1
      |pos i0 n0 r0 n1 r1 Hn Hn1 Hl R0 R1|pos n0 r0 i1 n1 r1 Hn Hn0 Hl R0 R1
      |pos i0 r0 n1 r1 Hl Hi Hn R0 R1|pos n0 r0 i1 r1 Hl Hi Hn R0 R1
      |pos i n r0 r1 Hl Hi R0 R1
      |pos i0 n0 r0 i1 n1 r1 k Hk Hl0 Hl1 Hi0 Hi1 N0 N1 N2 R0 R1
      |pos i0 n0 r0 n1 r1 k v0 v1 Hk Hn1 Hl0 Hl1 Hi Hv0 Hv1 R0 R1
      |pos n0 r0 i1 n1 r1 k v0 v1 Hk Hn0 Hl0 Hl1 Hi Hv0 Hv1 R0 R1
      |pos i0 n0 r0 i1 n1 r1 k v0 v1 Hk Hl0 Hl1 Hi0 Hi1 Hv0 Hv1 R0 R1].
    + destruct KC as [KC _]; [apply cut_ctail; lia|apply cut_ctail; lia|].
      split; [|split].
      * rewrite (ftext_ctail pos n0 k), (ftext_ctail pos n1 k) by lia; apply sides_frag, sides_grow, KC.
      * intros _ (? & ? & ? & ? & ? & C & _); discriminate.
      * intros _ (? & ? & ? & ? & ? & C & _); discriminate.
    + destruct KC as [KC _]; [apply cut_drop|apply cut_ctail; lia|].
      split; [|split].
      * rewrite (ftext_ctail pos n1 n0), ftext_cons by lia; apply sides_frag, sides_grow, KC.
      * intros _ _; rewrite (ftext_ctail pos n1 n0) by lia; cbn [tl].
        apply sides_frag, (sides_grow _ _ _ []), KC.
      * intros _ (? & ? & ? & ? & ? & C & _); discriminate.
    + destruct KC as [KC _]; [apply cut_ctail; lia|apply cut_drop|].
      split; [|split].
      * rewrite (ftext_ctail pos n0 n1), (ftext_cons (gfrag p pos i1 n1)) by lia; apply sides_frag, sides_grow, KC.
      * intros _ (? & ? & ? & ? & ? & C & _); discriminate.
      * intros _ _; rewrite (ftext_ctail pos n0 n1) by lia; cbn [tl].
        apply sides_frag, (sides_grow _ _ _ _ []), KC.
    + destruct KC as [KC _]; [apply cut_gtail; lia|apply cut_cdrop|].
      split; [|split].
      * rewrite (ftext_gtail pos i0 n0 n1), (ftext_cons (cfrag p pos n1)); now apply sides_conf.
      * intros _ (? & ? & ? & ? & ? & C & D & L); injection C as -> _ -> _; injection D as _ -> _; lia.
      * intros _ (? & ? & ? & ? & ? & C & _); discriminate.
    + (* excluded by reach_free *)
      exfalso; destruct (stream_must_change _ _ R0) as [i [n [r ->]]]; [lia|].
      apply (HK1 (pos + n0, i, n) (pos, i1, n1)); cbn [fedits cfrag gfrag In]; auto;
        unfold e_end, e_pos, e_len; cbn [fst snd]; lia.
    + destruct (stream_must_copy _ _ R0) as [m [r ->]]; [lia|].
      inversion R0; subst.
      destruct (le_lt_dec n1 m) as [Hm|Hm].
      * destruct KC as [_ [_ KC]].
        { apply cut_incl; cbn [fedits gfrag]; intros e He; right; rewrite Nat.add_0_r; exact He. }
        { apply cut_swap. }
        specialize (KC eq_refl ltac:(eexists _, _, _, _, _; split; [reflexivity|split; [reflexivity|exact Hm]])).
        cbn [tl] in KC; split; [|split].
        -- rewrite ftext_cons, (ftext_cons (gfrag p pos [] n1)); cbn [f_insert gfrag]; apply sides_grow, KC.
        -- intros _ (? & ? & ? & ? & ? & _ & C & _); discriminate.
        -- intros _ (? & ? & ? & ? & ? & _ & C & _); discriminate.
      * exfalso.
        match goal with H : stream p false true (pos + m) r |- _ => destruct (stream_must_change _ _ H) as [i [n [r' ->]]]; [lia|] end.
        apply (HK1 (pos + m, i, n) (pos, [], n1)); cbn [fedits cfrag gfrag In]; auto.
        -- right; left; f_equal; f_equal; lia.
        -- unfold e_pos; cbn; lia.
        -- unfold e_end, e_pos, e_len; cbn; lia.
    + destruct (stream_must_copy _ _ R1) as [m [r ->]]; [lia|].
      inversion R1; subst.
      destruct (le_lt_dec n0 m) as [Hm|Hm].
      * destruct KC as [_ [KC _]].
        { apply cut_swap. }
        { apply cut_incl; cbn [fedits gfrag]; intros e He; right; rewrite Nat.add_0_r; exact He. }
        specialize (KC eq_refl ltac:(eexists _, _, _, _, _; split; [reflexivity|split; [reflexivity|exact Hm]])).
        cbn [tl] in KC; split; [|split].
        -- rewrite ftext_cons, (ftext_cons (gfrag p pos i1 0)); cbn [f_insert gfrag]; apply sides_grow, KC.
        -- intros _ (? & ? & ? & ? & ? & _ & C & _); discriminate.
        -- intros _ (? & ? & ? & ? & ? & _ & C & _); discriminate.
      * exfalso.
        match goal with H : stream p false true (pos + m) r |- _ => destruct (stream_must_change _ _ H) as [i [n [r' ->]]]; [lia|] end.
        apply (HK2 (pos, [], n0) (pos, i1, 0) (pos + m, i, n)); cbn [fedits cfrag gfrag In]; auto.
        -- right; left; f_equal; f_equal; lia.
        -- unfold e_pos; cbn; lia.
        -- unfold e_end, e_pos, e_len; cbn; lia.
    + destruct KC as [KC _]; [apply cut_drop|apply cut_drop|].
      split; [|split].
      * rewrite ftext_cons, (ftext_cons (gfrag p pos i n) r1); apply sides_frag, sides_grow, KC.
      * intros _ (? & ? & ? & ? & ? & _ & C & _); discriminate.
      * intros _ (? & ? & ? & ? & ? & _ & C & _); discriminate.
    + destruct KC as [KC _]; [apply cut_gtail; lia|apply cut_gtail; lia|].
      split; [|split].
      * rewrite (ftext_gtail pos i0 n0 k), (ftext_gtail pos i1 n1 k); now apply sides_conf.
      * intros _ (? & ? & ? & ? & ? & _ & C & _); discriminate.
      * intros _ (? & ? & ? & ? & ? & _ & C & _); discriminate.
    + destruct KC as [KC _]; [apply cut_gtail; lia|apply cut_ctail; lia|].
      split; [|split; discriminate].
      rewrite (ftext_gtail pos i0 n0 k), (ftext_ctail pos n1 k) by lia; now apply sides_conf.
    + destruct KC as [KC _]; [apply cut_ctail; lia|apply cut_gtail; lia|].
      split; [|split; discriminate].
      rewrite (ftext_ctail pos n0 k), (ftext_gtail pos i1 n1 k) by lia; now apply sides_conf.
    + destruct KC as [KC _]; [apply cut_gtail; lia|apply cut_gtail; lia|].
      split; [|split; discriminate].
      rewrite (ftext_gtail pos i0 n0 k), (ftext_gtail pos i1 n1 k); now apply sides_conf.
Qed.
End Runs.
