(** From two texts to what gaspra-diff and gaspra-merge write (C56, C57). *)
From Coq Require Import String Lia.
From Verif Require Import Base Changesets SpecDiff DiffProofs Merge SpecMerge MergeLaws Tokenizers SpecTokenizers
  TokenizersProofs TokenizersDiff Lines SpecLines LinesProofs LinesMore Markup SpecMarkup MarkupProofs.
Local Open Scope Z_scope.
Local Open Scope list_scope.

#[local] Existing Instance Teq_tag.
#[local] Existing Instance TeqOk_tag.

Definition cat_item (i : ditem (list Z)) : ditem Z :=
  match i with DText t => DText (concat t) | DChange a b => DChange (concat a) (concat b) end.
Lemma as_present D : map as_ditem (map (present SStr) D) = map cat_item D.
Proof. rewrite map_map. apply map_ext. now intros []. Qed.
Lemma cat_before D : diff_before (map cat_item D) = concat (diff_before D).
Proof. unfold diff_before. induction D as [|[t|a b] D IH]; cbn; [reflexivity| |]; now rewrite concat_app, IH. Qed.
Lemma cat_after D : diff_after (map cat_item D) = concat (diff_after D).
Proof. unfold diff_after. induction D as [|[t|a b] D IH]; cbn; [reflexivity| |]; now rewrite concat_app, IH. Qed.

(** ** Only the last token of a text can be empty *)
Definition full (ts : list (list Z)) : Prop := Forall (fun t => t <> []) (removelast ts).
Lemma full_all ts : Forall (fun t => t <> []) ts -> full ts.
Proof.
  unfold full. induction 1 as [|t ts H F IH]; cbn; [constructor|]. destruct ts; [constructor|]. now constructor.
Qed.
Lemma full_tail x y : full (x ++ y) -> full y.
Proof.
  unfold full. destruct y as [|c y]; [constructor|]. rewrite removelast_app by discriminate.
  intros H. now apply Forall_app in H.
Qed.
Lemma full_head x y : y <> [] -> full (x ++ y) -> Forall (fun t => t <> []) x.
Proof. unfold full. intros H. rewrite removelast_app by exact H. intros F. now apply Forall_app in F. Qed.
Lemma symbols_nonempty re_w n : forall s, Forall (fun t => t <> []) (symbols_loop re_w n s).
Proof.
  induction n as [|n IH]; intros s; cbn [symbols_loop]; [constructor|]. destruct s as [|c s]; [constructor|].
  destruct (is_word re_w c); [|constructor; [discriminate|apply IH]].
  destruct (span_word re_w s). constructor; [discriminate|apply IH].
Qed.
Lemma texts_full re_w k s ts : texts re_w k (CStr s) = Some ts -> full ts.
Proof.
  destruct k; cbn; intros H; injection H as <-.
  - apply full_all. apply Forall_forall. intros t Ht. apply in_map_iff in Ht as [x [<- _]]. discriminate.
  - apply full_all. apply Forall_forall. intros t Ht. apply in_map_iff in Ht as [x [<- _]]. discriminate.
  - unfold full, lines_of. rewrite removelast_app by discriminate. cbn. rewrite app_nil_r.
    apply Forall_forall. intros t Ht. apply in_map_iff in Ht as [x [<- _]]. destruct x; discriminate.
  - apply full_all, symbols_nonempty.
Qed.

Lemma concat_nil_all (t : list (list Z)) : concat t = [] -> Forall (fun x => x = []) t.
Proof.
  induction t as [|x t IH]; cbn; [constructor|]. intros H. apply app_eq_nil in H as [-> H]. constructor; auto.
Qed.
Lemma visible_items D : alternating D -> Forall item_ok D -> full (diff_before D) -> full (diff_after D) ->
  alternating (visible (map cat_item D)) /\
  match D, visible (map cat_item D) with
  | DText _ :: _, DChange _ _ :: _ | DChange _ _ :: _, DText _ :: _ | [], _ :: _ => False
  | _, _ => True
  end.
Proof.
  induction D as [|i D IH]; intros A F B C.
  - split; [intros [|k] x y H; discriminate|exact I].
  - assert (A' : alternating D) by (intros k x y; exact (A (S k) x y)).
    inversion F as [|? ? Hi F']; subst.
    assert (B' : full (diff_before D)) by (unfold diff_before in *; cbn [flat_map] in B; now apply full_tail in B).
    assert (C' : full (diff_after D)) by (unfold diff_after in *; cbn [flat_map] in C; now apply full_tail in C).
    destruct (IH A' F' B' C') as [V H]. cbn [map]. rewrite visible_cons.
    destruct i as [t|a b]; cbn [cat_item is_true].
    + destruct (concat t) as [|c s] eqn:E; cbn [nonempty].
      * assert (D = []) as ->; [|split; [intros [|k] x y Hx; discriminate|exact I]].
        destruct D as [|j D]; [reflexivity|exfalso].
        apply concat_nil_all in E. destruct t as [|x t]; [now apply Hi|]. inversion E; subst.
        destruct j as [t'|a b].
        { destruct (A 0%nat _ _ eq_refl eq_refl) as [[_ [? [? X]]]|[[? [? X]] _]]; discriminate. }
        inversion F' as [|? ? Hj _]; subst. destruct Hj as [Hj _]. unfold diff_before, diff_after in *. cbn [flat_map] in B, C.
        destruct b as [|y b].
        -- destruct a as [|y a]; [now destruct Hj|]. apply full_head in C; [|discriminate]. inversion C; congruence.
        -- apply full_head in B; [|discriminate]. inversion B; congruence.
      * split; [|exact I]. intros [|k] x y H1 H2; [|exact (V k x y H1 H2)].
        cbn [nth_error] in H1, H2. injection H1 as <-. left. split; [now eexists|].
        destruct D as [|[t'|a b] D].
        -- destruct (visible _) eqn:EV; [discriminate|contradiction].
        -- destruct (A 0%nat _ _ eq_refl eq_refl) as [[_ [? [? X]]]|[[? [? X]] _]]; discriminate.
        -- destruct (visible _) as [|[t'|a' b'] r] eqn:EV; [discriminate|contradiction|]. injection H2 as <-. now do 2 eexists.
    + split; [|exact I]. intros [|k] x y H1 H2; [|exact (V k x y H1 H2)].
      cbn [nth_error] in H1, H2. injection H1 as <-. right. split; [now do 2 eexists|].
      destruct D as [|[t'|a' b'] D].
      * destruct (visible _) eqn:EV; [discriminate|contradiction].
      * destruct (visible _) as [|[t''|a' b'] r] eqn:EV; [discriminate| |contradiction]. injection H2 as <-. now eexists.
      * destruct (A 0%nat _ _ eq_refl eq_refl) as [[[? X] _]|[_ [? X]]]; discriminate.
Qed.

Section Cli.
Variable re_w space : Z -> bool.
Notation merge_result := (merge_result re_w).

(** the diff of two strings, as a stream for the renderer *)
Lemma diff_stream k original modified : real_text original -> real_text modified ->
  exists d, snd (diff re_w k new_tokenizer (CStr original) (CStr modified)) = Ok d /\
    diff_before (map as_ditem d) = original /\ diff_after (map as_ditem d) = modified /\
    alternating (visible (map as_ditem d)).
Proof.
  intros Ro Rm.
  assert (Eo : encodable k (CStr original)) by (split; [exact Ro|now destruct k]).
  assert (Em : encodable k (CStr modified)) by (split; [exact Rm|now destruct k]).
  destruct (diff_ok re_w k new_tokenizer (CStr original) (CStr modified) new_ok (or_introl eq_refl) eq_refl Eo Em)
    as [st' [tso [tsm [D0 [To [Tm [HD E]]]]]]].
  exists (map (present SStr) D0). rewrite E. split; [reflexivity|]. rewrite as_present, cat_before, cat_after.
  destruct (diff_accounts tso tsm) as [D1 [HD1 [HB HA]]]. rewrite HD in HD1; injection HD1 as <-.
  destruct (diff_normal tso tsm) as [D1 [HD1 [N1 N2]]]. rewrite HD in HD1; injection HD1 as <-.
  rewrite HB, HA. split; [exact (texts_concat _ _ _ _ To)|]. split; [exact (texts_concat _ _ _ _ Tm)|].
  apply visible_items; auto; rewrite ?HB, ?HA; eapply texts_full; eauto.
Qed.

Lemma consolidated l : exists d, consolidated_line_diff space l = Ok d /\ Forall whole_item d /\ sides_present d.
Proof.
  destruct (line_diff_whole space l) as [d [E W]]. exists (consolidate_lines d).
  unfold consolidated_line_diff. rewrite E. split; [reflexivity|].
  split; [now apply consolidate_whole|]. apply consolidate_sides. eapply line_diff_sides; eauto.
Qed.
Lemma consolidated_texts l : no_text_twice (visible l) -> exists d tail, consolidated_line_diff space l = Ok d /\
  (tail = [] \/ tail = [10]) /\ into_text d = diff_after l ++ tail /\ from_text d = diff_before l ++ tail.
Proof.
  intros N. destruct (line_diff_texts space l N) as [d [tail [E [T [I F]]]]]. exists (consolidate_lines d), tail.
  unfold consolidated_line_diff. rewrite E. split; [reflexivity|]. split; [exact T|].
  destruct (consolidate_ok d) as [-> [-> _]]. now split.
Qed.
Lemma consolidated_tail l : alternating (visible l) -> exists d, consolidated_line_diff space l = Ok d /\
  let tail := last_newline (diff_after l) (diff_before l) in
  into_text d = diff_after l ++ tail /\ from_text d = diff_before l ++ tail.
Proof.
  intros N. destruct (line_diff_tail space l N) as [d [E IF]]. exists (consolidate_lines d).
  unfold consolidated_line_diff. rewrite E. split; [reflexivity|].
  destruct (consolidate_ok d) as [-> [-> _]]. cbn zeta in *. unfold last_newline. rewrite <- !ends_whole_b. exact IF.
Qed.

Definition git_file (o : options) : Prop := o_git o = true /\ o_output o = true.
Lemma display_git o l d n0 n1 : git_file o -> consolidated_line_diff space l = Ok d -> sides_present d ->
  exists out, display space o (GIT_MARKUP_LEVEL0, PLAIN_LEVEL1) l n0 n1 None = (out, None) /\
              concat out = git_text n0 n1 d.
Proof.
  intros [G O] E S. unfold display, shown. rewrite G, orb_true_r, E. cbn [bind].
  unfold escape_of. rewrite O. cbn [fst snd markup_changes]. now apply git_printed.
Qed.

(** C56 for gaspra-diff *)
Theorem diff_git o original modified original_name modified_name :
  o_git o = true -> o_output o = true -> o_strikeout o = false ->
  real_text original -> real_text modified ->
  exists out d, snd (diff_cli re_w space o original modified original_name modified_name initial_styles) = (out, None) /\
    concat out = git_text modified_name original_name d /\
    Forall whole_item d /\ no_change_twice d /\
    let tail := last_newline modified original in
    into_text d = modified ++ tail /\ from_text d = original ++ tail /\
    (one_line original_name -> one_line modified_name ->
     no_markers (modified ++ tail) -> no_markers (original ++ tail) ->
     strip_conflicts true (concat out) = Some (modified ++ tail) /\
     strip_conflicts false (concat out) = Some (original ++ tail)).
Proof.
  intros G O St Ro Rm. destruct (diff_stream (tokenizer_of o) original modified Ro Rm) as [d [E [B [A V]]]].
  destruct (consolidated (map as_ditem d)) as [l [L [W S]]].
  destruct (consolidated_tail (map as_ditem d) V) as [l' [L' IF]]. rewrite L in L'; injection L' as <-.
  rewrite A, B in IF. cbn zeta in IF. destruct IF as [I F].
  assert (N : no_change_twice l).
  { unfold consolidated_line_diff in L. destruct (to_line_diff space (map as_ditem d)); [|discriminate].
    injection L as <-. apply consolidate_ok. }
  destruct (display_git o (map as_ditem d) l modified_name original_name (conj G O) L S) as [out [P C]].
  exists out, l. split.
  { unfold diff_cli, get_markup_style. rewrite St, G, O. cbn [andb fst snd]. rewrite E. cbn [snd].
    unfold escape_of at 1 2. rewrite O. exact P. }
  split; [exact C|]. split; [exact W|]. split; [exact N|]. cbn zeta. split; [exact I|]. split; [exact F|].
  intros N1 N2 M1 M2. rewrite C. split; rewrite git_strip; auto; rewrite ?I, ?F; auto.
Qed.

(** the merge of three strings *)
Lemma merge_texts k st p c t tp tc tt M0 : st_ok st -> TokenizersProofs.ready k st -> names k st p tp -> names k st c tc -> names k st t tt ->
  merge_token_sequence KTuple tp tc tt = Ok M0 ->
  (let* m := merge_token_sequence KTuple p c t in decode_changes k st m) = Ok (map (present (src st)) M0).
Proof.
  intros O R Np Nc Nt HM.
  destruct (merge_total KTuple p c t) as [m Hm]; [discriminate|]. rewrite Hm; cbn [bind].
  pose proof (merge_map (label k st) (label_inj k st O) KTuple p c t) as H1. rewrite Hm in H1.
  pose proof (merge_map (@inr Z (list Z)) ltac:(intros; congruence) KTuple tp tc tt) as H2. rewrite HM in H2.
  rewrite (label_names _ _ _ _ Np), (label_names _ _ _ _ Nc), (label_names _ _ _ _ Nt), H2 in H1.
  cbn in H1. injection H1 as H1; symmetry in H1. clear - O R H1.
  unfold decode_changes; apply map_res_ok.
  revert M0 H1; induction m as [|i d IH]; intros [|j D0] H; try discriminate; cbn [map]; constructor.
  - cbn [map] in H; injection H as H _.
    destruct i, j; cbn in H; try discriminate; injection H; intros; cbn [decode_item present].
    + erewrite decode_names; [reflexivity|assumption|apply names_label; eassumption].
    + erewrite decode_names; [cbn [bind]|assumption|apply names_label; eassumption].
      erewrite decode_names; [reflexivity|assumption|apply names_label; eassumption].
  - apply IH; cbn [map] in H; now injection H.
Qed.
Lemma three k p c t : real_text p -> real_text c -> real_text t ->
  exists s1 s2 st ep ec et tp tc tt, encode re_w k new_tokenizer (CStr p) = (s1, Ok ep) /\
    encode re_w k s1 (CStr c) = (s2, Ok ec) /\ encode re_w k s2 (CStr t) = (st, Ok et) /\
    st_ok st /\ TokenizersProofs.ready k st /\ src st = SStr /\ names k st ep tp /\ names k st ec tc /\ names k st et tt /\
    texts re_w k (CStr p) = Some tp /\ texts re_w k (CStr c) = Some tc /\ texts re_w k (CStr t) = Some tt.
Proof.
  intros Rp Rc Rt.
  assert (E : forall s, real_text s -> encodable k (CStr s)) by (intros s H; split; [exact H|now destruct k]).
  destruct (texts_encodable re_w k _ (E _ Rp)) as [tp Tp]; destruct (texts_encodable re_w k _ (E _ Rc)) as [tc Tc];
    destruct (texts_encodable re_w k _ (E _ Rt)) as [tt Tt].
  destruct (encode_ok re_w k new_tokenizer (CStr p) tp new_ok (or_introl eq_refl) Rp Tp) as [s1 [ep [E1 [O1 [X1 [S1 [R1 N1]]]]]]].
  destruct (encode_ok re_w k s1 (CStr c) tc O1 (or_intror S1) Rc Tc) as [s2 [ec [E2 [O2 [X2 [S2 [R2 N2]]]]]]].
  destruct (encode_ok re_w k s2 (CStr t) tt O2 (or_intror S2) Rt Tt) as [s3 [et [E3 [O3 [X3 [S3 [R3 N3]]]]]]].
  exists s1, s2, s3, ep, ec, et, tp, tc, tt. repeat (split; [assumption|]).
  split; [unfold src; now rewrite S3|].
  split; [apply (names_extends k s2); auto; [congruence|]; apply (names_extends k s1); auto; congruence|].
  split; [apply (names_extends k s2); auto; congruence|]. auto.
Qed.

Lemma merge_stream o p c t : real_text p -> real_text c -> real_text t ->
  exists d, merge_result o p c t = Ok d /\ no_text_twice (visible (map as_ditem d)).
Proof.
  intros Rp Rc Rt. unfold merge_result. set (k := tokenizer_of o).
  destruct (three k p c t Rp Rc Rt) as [s1 [s2 [st [ep [ec [et [tp [tc [tt [E1 [E2 [E3 [O [R [Hsrc [Np [Nc [Nt _]]]]]]]]]]]]]]]]]].
  rewrite E1, E2, E3. cbn [bind]. destruct (merge_total KTuple tp tc tt) as [M0 HM]; [discriminate|].
  rewrite (merge_texts k st ep ec et tp tc tt M0) by assumption. eexists; split; [reflexivity|].
  rewrite Hsrc, as_present. apply alternating_visible.
  destruct (merge_normal KTuple tp tc tt M0 HM) as [->|[_ [A _]]].
  - intros [|[|k']] x y H; discriminate.
  - intros i x y H1 H2. rewrite nth_error_map in H1, H2.
    destruct (nth_error M0 i) as [u|] eqn:U; [|discriminate]. destruct (nth_error M0 (S i)) as [v|] eqn:W; [|discriminate].
    injection H1 as <-; injection H2 as <-.
    destruct (A i u v U W) as [[[x ->] [y [z ->]]]|[[x [y ->]] [z ->]]]; [left|right]; split; eexists; try eexists; reflexivity.
Qed.

Lemma merge_cli_run o p c t pn cn tn g : o_diff o = false -> real_text p -> real_text c -> real_text t ->
  exists d, merge_result o p c t = Ok d /\
    snd (merge_cli re_w space o p c t pn cn tn g) =
    display space o (snd (get_markup_style o false g)) (map as_ditem d) cn tn None.
Proof.
  intros Df Rp Rc Rt. unfold merge_result, merge_cli. set (k := tokenizer_of o).
  destruct (three k p c t Rp Rc Rt) as [s1 [s2 [st [ep [ec [et [tp [tc [tt [E1 [E2 [E3 [O [R [Hsrc [Np [Nc [Nt _]]]]]]]]]]]]]]]]]].
  rewrite E1, E2, E3. cbn [bind]. destruct (merge_total KTuple tp tc tt) as [M0 HM]; [discriminate|].
  pose proof (merge_texts k st ep ec et tp tc tt M0 O R Np Nc Nt HM) as HT.
  rewrite HT. eexists; split; [reflexivity|]. rewrite Df.
  destruct (merge_token_sequence KTuple ep ec et) as [m|]; [|discriminate]. cbn [bind] in HT |- *. rewrite HT. cbn [bind].
  destruct (get_markup_style o false g) as [g' style]. cbn [snd].
  destruct (display space o style _ cn tn None). reflexivity.
Qed.

(** C56 for gaspra-merge *)
Theorem merge_git o p c t pn cn tn :
  o_git o = true -> o_output o = true -> o_diff o = false ->
  real_text p -> real_text c -> real_text t ->
  exists out d m tail, snd (merge_cli re_w space o p c t pn cn tn initial_styles) = (out, None) /\
    concat out = git_text cn tn d /\
    Forall whole_item d /\ no_change_twice d /\
    merge_result o p c t = Ok m /\ (tail = [] \/ tail = [10]) /\
    into_text d = text_after m ++ tail /\ from_text d = text_before m ++ tail /\
    (one_line cn -> one_line tn -> no_markers (text_after m ++ tail) -> no_markers (text_before m ++ tail) ->
     strip_conflicts true (concat out) = Some (text_after m ++ tail) /\
     strip_conflicts false (concat out) = Some (text_before m ++ tail)).
Proof.
  intros G O Df Rp Rc Rt. destruct (merge_stream o p c t Rp Rc Rt) as [m [Em N]].
  destruct (merge_cli_run o p c t pn cn tn initial_styles Df Rp Rc Rt) as [m' [Em' R]].
  rewrite Em in Em'; injection Em' as <-.
  destruct (consolidated (map as_ditem m)) as [l [L [W S]]].
  destruct (consolidated_texts (map as_ditem m) N) as [l' [tail [L' [T [I F]]]]]. rewrite L in L'; injection L' as <-.
  assert (N' : no_change_twice l).
  { unfold consolidated_line_diff in L. destruct (to_line_diff space (map as_ditem m)); [|discriminate].
    injection L as <-. apply consolidate_ok. }
  assert (TA : diff_after (map as_ditem m) = text_after m).
  { clear. unfold diff_after, text_after. induction m as [|[x|x y] m IH]; cbn; congruence. }
  assert (TB : diff_before (map as_ditem m) = text_before m).
  { clear. unfold diff_before, text_before. induction m as [|[x|x y] m IH]; cbn; congruence. }
  rewrite TA in I. rewrite TB in F.
  destruct (display_git o (map as_ditem m) l cn tn (conj G O) L S) as [out [P C]].
  exists out, l, m, tail. split.
  { rewrite R. unfold get_markup_style. rewrite andb_false_r, G, O. exact P. }
  split; [exact C|]. split; [exact W|]. split; [exact N'|]. split; [exact Em|]. split; [exact T|].
  split; [exact I|]. split; [exact F|].
  intros N1 N2 M1 M2. rewrite C. split; rewrite git_strip; auto; rewrite ?I, ?F; auto.
Qed.
End Cli.
