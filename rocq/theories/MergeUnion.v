(** Compatible edits merge to the positional union, without conflict. *)
From Verif Require Import Base Strings SpecSeq AutomatonProofs Changesets SpecDiff ChangesetsProofs DiffLaws Merge SpecMerge MergeStreams MergeSteps.

Section Union.
Context {T : Type} {E : Teq T} {O : TeqOk T}.
Variable p : list T.
Implicit Types es : list (edit T).

Lemma list_teq_refl (x : list T) : list_teq x x = true.
Proof. apply (@teq_refl (list T) Teq_list TeqOk_list). Qed.
Lemma both_ins_nil_r (x : list T) : both_ins x [] = x.
Proof. unfold both_ins; destruct (list_teq x []); auto using app_nil_r. Qed.
Lemma both_ins_nil_l (x : list T) : both_ins [] x = x.
Proof. unfold both_ins; destruct x; reflexivity. Qed.
Lemma both_ins_same (x : list T) : both_ins x x = x.
Proof. unfold both_ins; now rewrite list_teq_refl. Qed.

Definition ucell es0 es1 i : list T :=
  both_ins (ins_at es0 i) (ins_at es1 i) ++
  (if removed es0 i || removed es1 i then [] else firstn 1 (skipn i p)).

Lemma union_split es0 es1 pos k : pos + k <= S (length p) ->
  union_from p es0 es1 pos = flat_map (ucell es0 es1) (seq pos k) ++ union_from p es0 es1 (pos + k).
Proof.
  intros H; unfold union_from; rewrite <- flat_map_app, <- seq_app.
  do 2 f_equal; lia.
Qed.
Lemma flat_map_ext_in {A B} (f g : A -> list B) l : (forall x, In x l -> f x = g x) ->
  flat_map f l = flat_map g l.
Proof. intros H; rewrite !flat_map_concat_map; f_equal; now apply map_ext_in. Qed.
Lemma union_ext es0 es1 es0' es1' pos :
  (forall i, pos <= i -> ucell es0 es1 i = ucell es0' es1' i) ->
  union_from p es0 es1 pos = union_from p es0' es1' pos.
Proof.
  intros H; unfold union_from; apply flat_map_ext_in; intros i Hi; apply in_seq in Hi; apply H; lia.
Qed.

Definition above (n : nat) es : Prop := forall e, In e es -> n <= e_pos e.
Lemma above_ins n es i : above n es -> i < n -> ins_at es i = [].
Proof.
  intros H Hi; induction es as [|e es IH]; cbn; [reflexivity|].
  destruct (Nat.eqb_spec (e_pos e) i); [exfalso; specialize (H e (or_introl eq_refl)); lia|].
  cbn; apply IH; intros e' He'; apply H; now right.
Qed.
Lemma above_removed n es i : above n es -> i < n -> removed es i = false.
Proof.
  intros H Hi; induction es as [|e es IH]; cbn; [reflexivity|].
  destruct (Nat.leb_spec (e_pos e) i); [exfalso; specialize (H e (or_introl eq_refl)); lia|].
  cbn; apply IH; intros e' He'; apply H; now right.
Qed.
Lemma above_mono n m es : above n es -> m <= n -> above m es.
Proof. intros H Hm e He; specialize (H e He); lia. Qed.

Lemma flat_single k : forall pos, pos + k <= length p ->
  flat_map (fun i => firstn 1 (skipn i p)) (seq pos k) = seg p pos (pos + k).
Proof.
  induction k as [|k IH]; intros pos H; cbn [seq flat_map].
  - now rewrite Nat.add_0_r, seg_nil.
  - rewrite IH by lia; rewrite (seg_app p pos (pos + 1)) by lia.
    replace (S pos) with (pos + 1) by lia; replace (pos + 1 + k) with (pos + S k) by lia; f_equal.
    unfold seg, slice; now replace (pos + 1 - pos) with 1 by lia.
Qed.
Lemma flat_none {A} (l : list nat) : flat_map (fun _ => @nil A) l = [].
Proof. induction l; auto. Qed.

Lemma union_clean es0 es1 pos k : pos + k <= length p -> above (pos + k) es0 -> above (pos + k) es1 ->
  union_from p es0 es1 pos = seg p pos (pos + k) ++ union_from p es0 es1 (pos + k).
Proof.
  intros H H0 H1; rewrite (union_split _ _ pos k) by lia; f_equal.
  rewrite <- flat_single by lia; apply flat_map_ext_in; intros i Hi; apply in_seq in Hi.
  unfold ucell; rewrite !(above_ins (pos + k)), !(above_removed (pos + k)) by (auto; lia).
  reflexivity.
Qed.

Lemma ins_at_cons e es i : ins_at (e :: es) i = (if e_pos e =? i then e_ins e else []) ++ ins_at es i.
Proof. reflexivity. Qed.
Lemma removed_cons e es i : removed (e :: es) i = (e_pos e <=? i) && (i <? e_end e) || removed es i.
Proof. reflexivity. Qed.

(** an edit of length [n] at [pos] *)
Lemma union_edit es0' es1' es0 es1 pos i n : pos + n <= length p ->
  above (pos + n) es0 -> above (pos + n) es1 -> above (S pos) es0 -> above (S pos) es1 ->
  (es0' = (pos, i, n) :: es0 /\ es1' = es1) \/ (es0' = es0 /\ es1' = (pos, i, n) :: es1) \/
  (es0' = (pos, i, n) :: es0 /\ es1' = (pos, i, n) :: es1) ->
  union_from p es0' es1' pos = i ++ union_from p es0 es1 (pos + n).
Proof.
  intros Hl A0 A1 B0 B1 Hc.
  assert (I0 : ins_at es0 pos = []) by (apply (above_ins (S pos)); auto).
  assert (I1 : ins_at es1 pos = []) by (apply (above_ins (S pos)); auto).
  assert (Q0 : removed es0 pos = false) by (apply (above_removed (S pos)); auto).
  assert (Q1 : removed es1 pos = false) by (apply (above_removed (S pos)); auto).
  assert (Hp : both_ins (ins_at es0' pos) (ins_at es1' pos) = i).
  { destruct Hc as [[-> ->]|[[-> ->]|[-> ->]]]; rewrite ?ins_at_cons, I0, I1; unfold e_pos, e_ins; cbn [fst snd];
      rewrite Nat.eqb_refl, app_nil_r; auto using both_ins_nil_r, both_ins_nil_l, both_ins_same. }
  assert (Hr : removed es0' pos || removed es1' pos = (0 <? n)).
  { destruct Hc as [[-> ->]|[[-> ->]|[-> ->]]]; rewrite ?removed_cons, Q0, Q1; unfold e_end, e_pos, e_len; cbn [fst snd];
      rewrite Nat.leb_refl, !orb_false_r; cbn [andb orb];
      destruct (Nat.ltb_spec pos (pos + n)), (Nat.ltb_spec 0 n); auto; lia. }
  assert (He : forall j, pos < j -> pos + n <= j -> ucell es0' es1' j = ucell es0 es1 j).
  { intros j Hj Hn; unfold ucell; destruct Hc as [[-> ->]|[[-> ->]|[-> ->]]];
      rewrite ?ins_at_cons, ?removed_cons; unfold e_end, e_pos, e_len; cbn [fst snd];
      destruct (Nat.eqb_spec pos j); try lia; destruct (Nat.ltb_spec j (pos + n)); try lia;
      rewrite ?andb_false_r; reflexivity. }
  destruct n as [|n].
  - rewrite Nat.add_0_r.
    rewrite (union_split es0' es1' pos 1), (union_split es0 es1 pos 1) by lia.
    cbn [seq flat_map]; rewrite !app_nil_r.
    unfold ucell at 1 2; rewrite Hp, Hr, I0, I1, Q0, Q1, both_ins_nil_l; cbn [Nat.ltb Nat.leb orb app].
    rewrite <- app_assoc; do 2 f_equal; apply union_ext; intros j Hj; apply He; lia.
  - rewrite (union_split es0' es1' pos (S n)) by lia; cbn [seq flat_map].
    rewrite (flat_map_ext_in (ucell es0' es1') (fun _ => [])), flat_none, app_nil_r.
    + unfold ucell at 1; rewrite Hp, Hr; cbn [Nat.ltb Nat.leb]; rewrite app_nil_r.
      f_equal; apply union_ext; intros j Hj; apply He; lia.
    + intros j Hj; apply in_seq in Hj; unfold ucell.
      assert (K : ins_at es0' j = [] /\ ins_at es1' j = [] /\ removed es0' j || removed es1' j = true).
      { destruct Hc as [[-> ->]|[[-> ->]|[-> ->]]];
        rewrite ?ins_at_cons, ?removed_cons, !(above_ins (pos + S n)), ?(above_removed (pos + S n)) by (auto; lia);
        unfold e_end, e_pos, e_len; cbn [fst snd];
        destruct (Nat.eqb_spec pos j); try lia; destruct (Nat.ltb_spec j (pos + S n)); try lia;
        destruct (Nat.leb_spec pos j); try lia; auto. }
      destruct K as [-> [-> ->]]; reflexivity.
Qed.

Lemma union_comp0 es0 es1 pos i n : above (S pos) es0 -> above (S pos) es1 ->
  union_from p ((pos, i, 0) :: es0) ((pos, [], n) :: es1) pos =
  union_from p es0 ((pos, i, n) :: es1) pos.
Proof.
  intros A0 A1; apply union_ext; intros j Hj; unfold ucell.
  rewrite !ins_at_cons, !removed_cons; unfold e_end, e_pos, e_len, e_ins; cbn [fst snd].
  rewrite Nat.add_0_r.
  assert ((pos <=? j) && (j <? pos) = false) as ->.
  { destruct (Nat.ltb_spec j pos); [lia|apply andb_false_r]. }
  cbn [orb]; f_equal.
  destruct (Nat.eqb_spec pos j) as [->|N]; [|reflexivity].
  rewrite !(above_ins (S j)) by (auto; lia).
  cbn [app]; now rewrite app_nil_r, both_ins_nil_r, both_ins_nil_l.
Qed.
Lemma union_comp1 es0 es1 pos i n : above (S pos) es0 -> above (S pos) es1 ->
  union_from p ((pos, [], n) :: es0) ((pos, i, 0) :: es1) pos =
  union_from p ((pos, i, n) :: es0) es1 pos.
Proof.
  intros A0 A1; apply union_ext; intros j Hj; unfold ucell.
  rewrite !ins_at_cons, !removed_cons; unfold e_end, e_pos, e_len, e_ins; cbn [fst snd].
  rewrite Nat.add_0_r.
  assert ((pos <=? j) && (j <? pos) = false) as ->.
  { destruct (Nat.ltb_spec j pos); [lia|apply andb_false_r]. }
  cbn [orb]; f_equal.
  destruct (Nat.eqb_spec pos j) as [->|N]; [|reflexivity].
  rewrite !(above_ins (S j)) by (auto; lia).
  cbn [app]; now rewrite app_nil_r, both_ins_nil_r, both_ins_nil_l.
Qed.

(** edits of a stream *)
Lemma stream_above c g pos fs : stream p c g pos fs -> above pos (fedits pos fs).
Proof. intros H e He; now apply (stream_edits_ge _ _ _ _ _ H). Qed.
Lemma stream_above_S c pos fs : stream p c false pos fs -> above (S pos) (fedits pos fs).
Proof. intros H e He; now apply (stream_edits_gt _ _ _ _ H). Qed.
Lemma fedits_ctail pos n k r : k <= n -> fedits (pos + k) (ctail p pos n k r) = fedits (pos + n) r.
Proof.
  intros H; unfold ctail; destruct (Nat.ltb_spec k n); cbn [fedits]; f_equal; lia.
Qed.

Lemma compatible_incl es0 es1 es0' es1' : compatible es0 es1 ->
  (forall e, In e es0' -> In e es0) -> (forall e, In e es1' -> In e es1) -> compatible es0' es1'.
Proof. intros H H0 H1 e0 e1 I0 I1; auto. Qed.

Ltac kill := exfalso; unfold compatible_edits, e_end, e_pos, e_len, e_ins in *; cbn [fst snd] in *.

Theorem union_run pos fs0 fs1 w out : mrun p pos fs0 fs1 w out -> w = false ->
  compatible (fedits pos fs0) (fedits pos fs1) ->
  exists g, out = map OFrag g /\ ftext g = union_from p (fedits pos fs0) (fedits pos fs1) pos.
Proof.
  induction 1 as [fs1 w S1|fs0 w S0|pos fs0 fs1 w o pos' fs0' fs1' w' rest S0 S1 HM HR IH]; intros Hw HC; [subst w|subst w|].
  - apply stream_end in S1; destruct S1 as [->|[i [Hi ->]]].
    + exists []; split; [reflexivity|]; cbn [fedits].
      unfold union_from; replace (S (length p) - length p) with 1 by lia; cbn [seq flat_map].
      rewrite app_nil_r, skipn_all; reflexivity.
    + exists [FChange i [] 0]; split; [reflexivity|]; cbn [fedits].
      rewrite (union_edit _ _ [] [] (length p) i 0); auto; try lia; try (now intros ? []).
      unfold union_from; replace (S (length p) - (length p + 0)) with 1 by lia; cbn [seq flat_map].
      rewrite Nat.add_0_r, skipn_all; cbn; now rewrite !app_nil_r.
  - apply stream_end in S0; destruct S0 as [->|[i [Hi ->]]].
    + exists []; split; [reflexivity|]; cbn [fedits].
      unfold union_from; replace (S (length p) - length p) with 1 by lia; cbn [seq flat_map].
      rewrite app_nil_r, skipn_all; reflexivity.
    + exists [FChange i [] 0]; split; [reflexivity|]; cbn [fedits].
      rewrite (union_edit _ _ [] [] (length p) i 0); auto; try lia; try (now intros ? []).
      unfold union_from; replace (S (length p) - (length p + 0)) with 1 by lia; cbn [seq flat_map].
      rewrite Nat.add_0_r, skipn_all; cbn; now rewrite !app_nil_r.
  - destruct HM as [pos n0 r0 n1 r1 w k Hk Hn0 Hn1 Hl0 Hl1 R0 R1
      |pos i0 n0 r0 n1 r1 Hn Hn1 Hl1 Hi R0 R1|pos n0 r0 i1 n1 r1 Hn Hn0 Hl0 Hi R0 R1
      |pos i0 n0 r0 n1 r1 Hn Hn1 Hl R0 R1|pos n0 r0 i1 n1 r1 Hn Hn0 Hl R0 R1
      |pos i0 r0 n1 r1 Hl Hi Hn R0 R1|pos n0 r0 i1 r1 Hl Hi Hn R0 R1
      |pos i n r0 r1 Hl Hi R0 R1
      |pos i0 n0 r0 i1 n1 r1 k Hk Hl0 Hl1 Hi0 Hi1 N0 N1 N2 R0 R1
      |pos i0 n0 r0 n1 r1 k v0 v1 Hk Hn1 Hl0 Hl1 Hi Hv0 Hv1 R0 R1
      |pos n0 r0 i1 n1 r1 k v0 v1 Hk Hn0 Hl0 Hl1 Hi Hv0 Hv1 R0 R1
      |pos i0 n0 r0 i1 n1 r1 k v0 v1 Hk Hl0 Hl1 Hi0 Hi1 Hv0 Hv1 R0 R1]; subst; try discriminate.
    + (* both copies *)
      cbn [fedits cfrag] in HC |- *; rewrite !fedits_ctail in IH by lia.
      destruct IH as [g [-> Hg]]; auto.
      exists (cfrag p pos (Nat.min n0 n1) :: g); split; [reflexivity|].
      rewrite (union_clean _ _ pos (Nat.min n0 n1)) by
        (try lia; eapply above_mono; try (eapply stream_above; eauto); lia).
      rewrite <- Hg; reflexivity.
    + (* change within a copy *)
      cbn [fedits cfrag gfrag] in HC |- *; rewrite fedits_ctail in IH by lia.
      destruct IH as [g [-> Hg]]; auto.
      { eapply compatible_incl; eauto; intros; now right. }
      exists (gfrag p pos i0 n0 :: g); split; [reflexivity|].
      rewrite (union_edit _ _ (fedits (pos + n0) r0) (fedits (pos + n1) r1) pos i0 n0); auto.
      * rewrite <- Hg; reflexivity.
      * lia.
      * eapply stream_above; eauto.
      * eapply above_mono; [eapply stream_above; eauto|lia].
      * eapply above_mono; [eapply stream_above_S; eauto|lia].
      * eapply above_mono; [eapply stream_above; eauto|lia].
    + cbn [fedits cfrag gfrag] in HC |- *; rewrite fedits_ctail in IH by lia.
      destruct IH as [g [-> Hg]]; auto.
      { eapply compatible_incl; eauto; intros; now right. }
      exists (gfrag p pos i1 n1 :: g); split; [reflexivity|].
      rewrite (union_edit _ _ (fedits (pos + n0) r0) (fedits (pos + n1) r1) pos i1 n1); auto.
      * rewrite <- Hg; reflexivity.
      * lia.
      * eapply above_mono; [eapply stream_above; eauto|lia].
      * eapply stream_above; eauto.
      * eapply above_mono; [eapply stream_above; eauto|lia].
      * eapply above_mono; [eapply stream_above_S; eauto|lia].
    + (* change longer than the copy: an edit of branch1 starts inside it *)
      inversion R1 as [? ? A B C|? ? ? ? A B C|? ? i1 m1 r Hm Hi1 R1']; subst; [lia|].
      cbn [fedits cfrag gfrag] in HC.
      specialize (HC (pos, i0, n0) (pos + n1, i1, m1) (or_introl eq_refl) (or_introl eq_refl)).
      kill; destruct HC as [HC|[HC|[HC|HC]]]; [injection HC; lia|lia|lia|lia].
    + inversion R0 as [? ? A B C|? ? ? ? A B C|? ? i0 m0 r Hm Hi0 R0']; subst; [lia|].
      cbn [fedits cfrag gfrag] in HC.
      specialize (HC (pos + n0, i0, m0) (pos, i1, n1) (or_introl eq_refl) (or_introl eq_refl)).
      kill; destruct HC as [HC|[HC|[HC|HC]]]; [injection HC; lia|lia|lia|lia].
    + (* composable *)
      cbn [fedits gfrag] in HC, IH |- *; rewrite Nat.add_0_r in HC |- *.
      assert (B0 := stream_above_S _ _ _ R0); assert (B1 := stream_above_S _ _ _ R1).
      rewrite union_comp0 by (auto; eapply above_mono; eauto; lia).
      apply IH; auto.
      intros e0 e1 I0 [<-|I1]; [|apply HC; now right].
      specialize (HC e0 (pos, [], n1) (or_intror I0) (or_introl eq_refl)).
      specialize (B0 e0 I0).
      destruct HC as [->|[HC|[HC|HC]]]; unfold e_end, e_pos, e_len in *; cbn [fst snd] in *; try lia.
      right; right; left; unfold e_end, e_pos, e_len; cbn [fst snd]; lia.
    + cbn [fedits gfrag] in HC, IH |- *; rewrite Nat.add_0_r in HC |- *.
      assert (B0 := stream_above_S _ _ _ R0); assert (B1 := stream_above_S _ _ _ R1).
      rewrite union_comp1 by (auto; eapply above_mono; eauto; lia).
      apply IH; auto.
      intros e0 e1 [<-|I0] I1; [|apply HC; now right].
      specialize (HC (pos, [], n0) e1 (or_introl eq_refl) (or_intror I1)).
      specialize (B1 e1 I1).
      destruct HC as [<-|[HC|[HC|HC]]]; unfold e_end, e_pos, e_len in *; cbn [fst snd] in *; try lia.
      right; left; unfold e_end, e_pos, e_len; cbn [fst snd]; lia.
    + (* identical *)
      cbn [fedits gfrag] in HC |- *.
      destruct IH as [g [-> Hg]]; auto.
      { eapply compatible_incl; eauto; intros; now right. }
      exists (gfrag p pos i n :: g); split; [reflexivity|].
      rewrite (union_edit _ _ (fedits (pos + n) r0) (fedits (pos + n) r1) pos i n); auto.
      * rewrite <- Hg; reflexivity.
      * eapply stream_above; eauto.
      * eapply stream_above; eauto.
      * eapply above_mono; [eapply stream_above_S; eauto|lia].
      * eapply above_mono; [eapply stream_above_S; eauto|lia].
    + (* a genuine conflict at the same place *)
      cbn [fedits gfrag] in HC.
      specialize (HC (pos, i0, n0) (pos, i1, n1) (or_introl eq_refl) (or_introl eq_refl)).
      kill; destruct HC as [HC|[HC|[HC|HC]]]; [|lia|lia|].
      * injection HC as -> ->; now apply N2.
      * destruct HC as [_ [[-> ->]|[-> ->]]]; [now apply N0|now apply N1].
Qed.

(** one-sided and identical unions *)
Ltac ab := first [assumption | intros ? [] | eapply stream_above; eassumption
                 | eapply above_mono; [eapply stream_above_S; eassumption|lia]].
Lemma union_nil_l c g pos fs : stream p c g pos fs -> union_from p [] (fedits pos fs) pos = ftext fs.
Proof.
  induction 1 as [|g pos n r Hn Hl Hs IH|c pos i n r Hl Hn Hs IH]; cbn [fedits].
  - unfold union_from; replace (S (length p) - length p) with 1 by lia; cbn [seq flat_map].
    rewrite app_nil_r, skipn_all; reflexivity.
  - rewrite (union_clean _ _ pos n) by ab; now rewrite IH.
  - rewrite (union_edit _ _ [] (fedits (pos + n) r) pos i n);
      [now rewrite IH|ab|ab|ab|ab|ab|auto].
Qed.
Lemma union_nil_r c g pos fs : stream p c g pos fs -> union_from p (fedits pos fs) [] pos = ftext fs.
Proof.
  induction 1 as [|g pos n r Hn Hl Hs IH|c pos i n r Hl Hn Hs IH]; cbn [fedits].
  - unfold union_from; replace (S (length p) - length p) with 1 by lia; cbn [seq flat_map].
    rewrite app_nil_r, skipn_all; reflexivity.
  - rewrite (union_clean _ _ pos n) by ab; now rewrite IH.
  - rewrite (union_edit _ _ (fedits (pos + n) r) [] pos i n);
      [now rewrite IH|ab|ab|ab|ab|ab|auto].
Qed.
Lemma union_self c g pos fs : stream p c g pos fs -> union_from p (fedits pos fs) (fedits pos fs) pos = ftext fs.
Proof.
  induction 1 as [|g pos n r Hn Hl Hs IH|c pos i n r Hl Hn Hs IH]; cbn [fedits].
  - unfold union_from; replace (S (length p) - length p) with 1 by lia; cbn [seq flat_map].
    rewrite app_nil_r, skipn_all; reflexivity.
  - rewrite (union_clean _ _ pos n) by ab; now rewrite IH.
  - rewrite (union_edit _ _ (fedits (pos + n) r) (fedits (pos + n) r) pos i n);
      [now rewrite IH|ab|ab|ab|ab|ab|auto].
Qed.

(** the edits of one stream are compatible with each other *)
Lemma self_compatible c g pos fs : stream p c g pos fs -> compatible (fedits pos fs) (fedits pos fs).
Proof.
  induction 1 as [|g pos n r Hn Hl Hs IH|c pos i n r Hl Hn Hs IH]; cbn [fedits]; intros e0 e1.
  - intros [].
  - apply IH.
  - assert (A := stream_above_S _ _ _ Hs).
    intros [<-|I0] [<-|I1].
    + now left.
    + right; left; specialize (A _ I1); unfold e_end, e_pos, e_len in *; cbn [fst snd] in *; lia.
    + right; right; left; specialize (A _ I0); unfold e_end, e_pos, e_len in *; cbn [fst snd] in *; lia.
    + now apply IH.
Qed.
End Union.
