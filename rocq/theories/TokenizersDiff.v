(** Diffs through a tokenizer are the diffs of the token texts. *)
From Coq Require Import ZArith Lia.
From Verif Require Import Base Changesets ChangesetsProofs SpecDiff DiffLaws DiffProofs Tokenizers SpecTokenizers Utf8Proofs TokenizersProofs.
Local Open Scope Z_scope.

Definition tag_teq (a b : Z + list Z) : bool :=
  match a, b with inl x, inl y => teq x y | inr x, inr y => teq x y | _, _ => false end.
#[local] Instance Teq_tag : Teq (Z + list Z) := tag_teq.
#[local] Instance TeqOk_tag : TeqOk (Z + list Z).
Proof.
  intros [x|x] [y|y]; cbn.
  - unfold teq, Teq_Z; split; [intros ?%Z.eqb_eq; congruence|intros H; injection H as ->; apply Z.eqb_refl].
  - split; discriminate.
  - split; discriminate.
  - rewrite (teq_ok x y); split; congruence.
Qed.

Notation names k st := (Forall2 (fun t x => name k st t = Some x)).

Section D.
Variable re_w : Z -> bool.

Definition label (k : tkind) (st : tstate) (t : Z) : Z + list Z :=
  match name k st t with Some x => inr x | None => inl t end.
Lemma label_inj k st : st_ok st -> forall x y, label k st x = label k st y -> x = y.
Proof.
  intros O x y; unfold label.
  destruct (name k st x) eqn:X, (name k st y) eqn:Y; intros H; try discriminate; injection H as H; subst; auto.
  eapply name_inj; eauto.
Qed.
Lemma label_names k st toks ts : names k st toks ts -> map (label k st) toks = map inr ts.
Proof. induction 1 as [|t x toks ts H _ IH]; cbn; [reflexivity|]. unfold label at 1; now rewrite H, IH. Qed.
Lemma names_label k st toks ts : map (label k st) toks = map inr ts -> names k st toks ts.
Proof.
  revert ts; induction toks as [|t toks IH]; intros [|x ts] H; try discriminate; constructor.
  - cbn in H; injection H as H _. unfold label in H. destruct (name k st t); congruence.
  - apply IH; cbn in H; now injection H.
Qed.

(** what a diff of token texts looks like to the user *)
Definition present (s : skind) (i : ditem (list Z)) : titem :=
  match i with
  | DText t => TText (mk s (concat t))
  | DChange a b => TChange (mk s (concat a)) (mk s (concat b))
  end.

Lemma diff_texts k st o m tso tsm D0 :
  st_ok st -> ready k st -> names k st o tso -> names k st m tsm ->
  diff_token_sequences tso tsm = Ok D0 ->
  (let* d := diff_token_sequences o m in decode_changes k st d) = Ok (map (present (src st)) D0).
Proof.
  intros O R No Nm HD.
  destruct (diff_accounts o m) as [d [Hd _]]; rewrite Hd; cbn [bind].
  pose proof (diff_map (label k st) (label_inj k st O) o m d Hd) as H1.
  pose proof (diff_map (@inr Z (list Z)) ltac:(intros; congruence) tso tsm D0 HD) as H2.
  rewrite (label_names _ _ _ _ No), (label_names _ _ _ _ Nm), H2 in H1.
  injection H1 as H1; symmetry in H1. clear - O R H1.
  unfold decode_changes; apply map_res_ok.
  revert D0 H1; induction d as [|i d IH]; intros [|j D0] H; try discriminate; cbn [map]; constructor.
  - cbn [map] in H; injection H as H _.
    destruct i, j; cbn in H; try discriminate; injection H; intros; cbn [decode_item present].
    + erewrite decode_names; [reflexivity|assumption|apply names_label; eassumption].
    + erewrite decode_names; [cbn [bind]|assumption|apply names_label; eassumption].
      erewrite decode_names; [reflexivity|assumption|apply names_label; eassumption].
  - apply IH; cbn [map] in H; now injection H.
Qed.

Lemma diff_ok k st o m : st_ok st -> fits st o -> kind_of o = kind_of m ->
  encodable k o -> encodable k m ->
  exists st' tso tsm D0, texts re_w k o = Some tso /\ texts re_w k m = Some tsm /\
    diff_token_sequences tso tsm = Ok D0 /\
    diff re_w k st o m = (st', Ok (map (present (kind_of o)) D0)).
Proof.
  intros Hst Hf Hk Eo Em.
  destruct (texts_encodable re_w k o Eo) as [tso To]; destruct (texts_encodable re_w k m Em) as [tsm Tm].
  destruct (encode_ok re_w k st o tso Hst Hf (proj1 Eo) To) as [s1 [to [E1 [O1 [X1 [S1 [R1 N1]]]]]]].
  assert (F1 : fits s1 m) by (right; congruence).
  destruct (encode_ok re_w k s1 m tsm O1 F1 (proj1 Em) Tm) as [s2 [tm [E2 [O2 [X2 [S2 [R2 N2]]]]]]].
  destruct (diff_accounts tso tsm) as [D0 [HD _]].
  exists s2, tso, tsm, D0; repeat (split; [assumption|]).
  unfold diff; rewrite E1, E2. f_equal.
  rewrite (diff_texts k s2 to tm tso tsm D0); auto.
  - do 2 f_equal. unfold src; rewrite S2, <- Hk; now destruct (kind_of o).
  - apply (names_extends k s1); auto. congruence.
Qed.

Lemma raw_mk s l : raw (mk s l) = l. Proof. now destruct s. Qed.
Lemma kind_mk s l : kind_of (mk s l) = s. Proof. now destruct s. Qed.

(** C48 *)
Theorem diff_accounts_text k before o m :
  Forall real_contents before -> Forall (fun x => kind_of x = kind_of o) before ->
  kind_of m = kind_of o -> encodable k o -> encodable k m ->
  exists st' d, diff re_w k (after re_w k new_tokenizer before) o m = (st', Ok d) /\
    text_before d = raw o /\ text_after d = raw m /\ pieces_have (kind_of o) d.
Proof.
  intros F1 F2 Hk Eo Em.
  destruct (after_ok re_w k before _ new_ok F1) as [O _].
  assert (Hf : fits (after re_w k new_tokenizer before) o).
  { apply after_fits; auto using new_ok. now left. }
  destruct (diff_ok k _ o m O Hf (eq_sym Hk) Eo Em) as [st' [tso [tsm [D0 [To [Tm [HD E]]]]]]].
  exists st', (map (present (kind_of o)) D0); split; [exact E|].
  destruct (diff_accounts tso tsm) as [D1 [HD1 [HB HA]]].
  rewrite HD in HD1; injection HD1 as <-.
  rewrite <- (texts_concat _ _ _ _ To), <- (texts_concat _ _ _ _ Tm), <- HB, <- HA.
  clear. unfold text_before, text_after, diff_before, diff_after, pieces_have.
  induction D0 as [|i D0 [IH1 [IH2 IH3]]]; [repeat split; constructor|].
  cbn [map flat_map]; rewrite !concat_app, IH1, IH2.
  destruct i; cbn [present]; rewrite ?raw_mk; repeat split; auto; constructor; rewrite ?kind_mk; auto.
Qed.

(** C49 *)

Lemma diff_step k st a b c : st_ok st -> fits st c -> real_contents a -> real_contents b ->
  kind_of a = kind_of c -> kind_of b = kind_of c ->
  st_ok (fst (diff re_w k st a b)) /\ fits (fst (diff re_w k st a b)) c.
Proof.
  intros Hst Hf Ra Rb Ka Kb; unfold diff.
  assert (step : forall st x, st_ok st -> fits st c -> real_contents x -> kind_of x = kind_of c ->
            st_ok (fst (encode re_w k st x)) /\ fits (fst (encode re_w k st x)) c).
  { intros s x Hs Hfs Rx Kx. destruct (encode_step re_w k s x Hs Rx) as [O [_ [S _]]].
    split; [exact O|]. unfold fits in *. destruct S as [S|[_ S]]; rewrite S; [exact Hfs|right; congruence]. }
  destruct (step st a Hst Hf Ra Ka) as [O1 F1].
  destruct (encode re_w k st a) as [s1 [ta|e]]; cbn [fst] in *; [|auto].
  destruct (step s1 b O1 F1 Rb Kb) as [O2 F2].
  destruct (encode re_w k s1 b) as [s2 [tb|e]]; cbn [fst] in *; auto.
Qed.

Theorem diff_stateless k calls o m :
  Forall (fun c => real_contents (fst c) /\ real_contents (snd c) /\
                   kind_of (fst c) = kind_of o /\ kind_of (snd c) = kind_of o) calls ->
  kind_of m = kind_of o -> encodable k o -> encodable k m ->
  snd (diff re_w k (after_diffs re_w k calls) o m) = snd (diff re_w k new_tokenizer o m).
Proof.
  intros F Hk Eo Em.
  assert (H : st_ok (after_diffs re_w k calls) /\ fits (after_diffs re_w k calls) o).
  { unfold after_diffs. assert (H0 : st_ok new_tokenizer /\ fits new_tokenizer o) by (split; [apply new_ok|now left]).
    revert H0; generalize new_tokenizer as st.
    induction F as [|c calls [Ra [Rb [Ka Kb]]] _ IH]; intros st [O Fi]; cbn [fold_left]; [auto|].
    apply IH. now apply diff_step. }
  destruct H as [O Fi].
  destruct (diff_ok k _ o m O Fi (eq_sym Hk) Eo Em) as [s1 [a [b [D [A [B [C ->]]]]]]].
  destruct (diff_ok k _ o m new_ok (or_introl eq_refl) (eq_sym Hk) Eo Em) as [s2 [a' [b' [D' [A' [B' [C' ->]]]]]]].
  cbn [snd]. congruence.
Qed.

(** C50 *)
Theorem merged_never k st p c o : exists e, snd (merged re_w k st p c o) = Err e.
Proof.
  unfold merged.
  destruct (encode re_w k st p) as [s1 [tp|e]]; [|eexists; reflexivity].
  destruct (encode re_w k s1 c) as [s2 [tc|e]]; [|eexists; reflexivity].
  destruct (encode re_w k s2 o) as [s3 [to|e]]; [|eexists; reflexivity].
  destruct (find_changeset_ok tp tc) as [x [-> _]]; destruct (find_changeset_ok tp to) as [y [-> _]].
  eexists; reflexivity.
Qed.
Theorem merged_type_error k p c o : encodable k p -> encodable k c -> encodable k o ->
  kind_of c = kind_of p -> kind_of o = kind_of p ->
  snd (merged re_w k new_tokenizer p c o) = Err TypeError.
Proof.
  intros Ep Ec Eo Kc Ko; unfold merged.
  destruct (texts_encodable re_w k p Ep) as [x1 T1]; destruct (texts_encodable re_w k c Ec) as [x2 T2];
    destruct (texts_encodable re_w k o Eo) as [x3 T3].
  destruct (encode_ok re_w k new_tokenizer p x1 new_ok (or_introl eq_refl) (proj1 Ep) T1) as [s1 [t1 [-> [O1 [_ [S1 _]]]]]].
  destruct (encode_ok re_w k s1 c x2 O1 ltac:(right; congruence) (proj1 Ec) T2) as [s2 [t2 [-> [O2 [_ [S2 _]]]]]].
  destruct (encode_ok re_w k s2 o x3 O2 ltac:(right; congruence) (proj1 Eo) T3) as [s3 [t3 [-> _]]].
  destruct (find_changeset_ok t1 t2) as [x [-> _]]; destruct (find_changeset_ok t1 t3) as [y [-> _]]; reflexivity.
Qed.

(** * Tokens of a fragment *)
Lemma singletons_piece (l : list Z) x y z : map (fun c => [c]) l = x ++ y ++ z ->
  map (fun c => [c]) (concat y) = y.
Proof.
  intros H. assert (F : Forall (fun t : list Z => exists c, t = [c]) (x ++ y ++ z)).
  { rewrite <- H. apply Forall_forall; intros t Ht; apply in_map_iff in Ht as [c [<- _]]; eauto. }
  apply Forall_app in F as [_ F]; apply Forall_app in F as [F _]. clear H.
  induction F as [|t y [c ->] _ IH]; cbn; [reflexivity|now rewrite IH].
Qed.

Lemma map_eq_mid {A B} (f : A -> B) l x y z : map f l = x ++ y ++ z ->
  exists l1 l2 l3, l = l1 ++ l2 ++ l3 /\ map f l2 = y.
Proof.
  intros H. apply map_eq_app in H as [l1 [r [-> [_ H]]]].
  apply map_eq_app in H as [l2 [l3 [-> [H _]]]]. eauto 6.
Qed.

(** with every tokenizer but the line tokenizer, a run of whole tokens has
    exactly those tokens when it is tokenized on its own *)
Theorem texts_piece k b x y z : k <> KLine -> texts re_w k (CBytes b) = Some (x ++ y ++ z) ->
  texts re_w k (CBytes (concat y)) = Some y.
Proof.
  intros Hk; destruct k; cbn; [| |now destruct Hk|].
  - intros H; injection H as H. f_equal; now apply singletons_piece in H.
  - destruct (utf8_decode b) as [s|] eqn:D; [|discriminate]; intros H; injection H as H.
    apply utf8_decode_ok in D as [F _].
    apply map_eq_mid in H as [l1 [l2 [l3 [-> <-]]]].
    apply Forall_app in F as [_ F]; apply Forall_app in F as [F _].
    now rewrite <- flat_map_concat_map, utf8_decode_encode.
  - destruct (utf8_decode b) as [s|] eqn:D; [|discriminate]; intros H; injection H as H.
    apply utf8_decode_ok in D as [F _].
    apply map_eq_mid in H as [l1 [l2 [l3 [Hs <-]]]].
    pose proof (symbols_of_seq re_w s) as Q. rewrite Hs in Q.
    apply sym_seq_suffix, sym_seq_prefix in Q.
    rewrite <- (symbols_of_concat re_w s), Hs, !concat_app in F.
    apply Forall_app in F as [_ F]; apply Forall_app in F as [F _].
    rewrite <- flat_map_pieces, utf8_decode_encode by exact F. cbn.
    now rewrite symbols_of_unique.
Qed.
End D.

(** * line_encode_strings *)
Definition lookups (d : list (list Z)) (e : list Z) (ls : list (list Z)) : Prop :=
  Forall2 (fun v t => py_index d v = Ok t) e ls.

Lemma line_loop_ok strings : forall enc, enum_ok enc -> exists enc' encs,
  line_encode_loop enc strings = Ok (enc', encs) /\ enum_ok enc' /\
  (exists ext, enc' = enc ++ ext) /\
  Forall2 (fun s e => lookups (dkeys enc') e (split_nl s)) strings encs /\
  (forall l, In l (dkeys enc') -> In l (dkeys enc) \/ exists s, In s strings /\ In l (split_nl s)).
Proof.
  induction strings as [|s strings IH]; intros enc H; cbn [line_encode_loop].
  - exists enc, []; repeat split; auto; try apply H. exists []; now rewrite app_nil_r.
  - destruct (enc_fold_ok (split_nl s) enc H) as [H1 [[ext1 X1] F]].
    destruct (lookup_all_ok _ _ F) as [toks [L N]]; rewrite L; cbn [bind].
    destruct (IH _ H1) as [enc' [encs [E [H2 [[ext2 X2] [F2 I2]]]]]]; rewrite E; cbn [bind fst snd].
    exists enc', (toks :: encs); split; [reflexivity|]. split; [exact H2|].
    split; [exists (ext1 ++ ext2); now rewrite X2, X1, app_assoc|]. split.
    + constructor; [|exact F2]. eapply Forall2_weak; [|exact N]. intros v t G.
      apply (enum_dget _ _ _ H1) in G as [G1 G2]. apply py_index_nat; [exact G1|].
      rewrite X2; unfold dkeys in *; rewrite map_app, nth_error_app1; [exact G2|].
      apply nth_error_Some; congruence.
    + intros l Hl; apply I2 in Hl as [Hl|[s' [Hs' Hl]]]; [|right; exists s'; split; [now right|exact Hl]].
      clear - Hl. assert (G : In l (dkeys enc) \/ In l (split_nl s)).
      { revert enc Hl; induction (split_nl s) as [|t ts IHt]; intros enc Hl; cbn [fold_left] in Hl; [auto|].
        apply IHt in Hl as [Hl|Hl]; [|right; now right].
        unfold enc_add in Hl; destruct (dmem enc t) eqn:M; [auto|].
        rewrite dkeys_dset, M in Hl. apply in_app_or in Hl as [Hl|[<-|[]]]; [auto|right; now left]. }
      destruct G as [G|G]; [auto|right; exists s; split; [now left|exact G]].
Qed.

Theorem line_encode_round_trip strings : exists d encs,
  line_encode_strings strings = Ok (d, encs) /\ NoDup d /\
  Forall2 (fun s e => exists ls, map_res (py_index d) e = Ok ls /\ join_with [10] ls = s /\
                                 Forall (fun l => ~ In 10 l) ls) strings encs /\
  (forall l, In l d -> exists s, In s strings /\ In l (split_nl s)).
Proof.
  unfold line_encode_strings.
  assert (H0 : enum_ok []). { split; [constructor|]; intros i t v H; now rewrite nth_error_nil in H. }
  destruct (line_loop_ok strings [] H0) as [enc' [encs [E [[H _] [_ [F I]]]]]]; rewrite E; cbn [bind fst snd].
  exists (dkeys enc'), encs; split; [reflexivity|]. split; [exact H|]. split.
  - eapply Forall2_weak; [|exact F]. intros s e L. exists (split_nl s).
    split; [now apply map_res_ok|]. split; [apply join_split_nl|apply split_nl_no_nl].
  - intros l Hl. apply I in Hl as [[]|Hl]; exact Hl.
Qed.
