(** Diffs of UTF-8 bytes are the UTF-8 of the diffs of the texts. *)
From Coq Require Import ZArith Lia.
From Verif Require Import Base Changesets ChangesetsProofs SpecDiff DiffLaws DiffProofs Tokenizers
  SpecTokenizers Utf8Proofs TokenizersProofs TokenizersDiff Merge MergeLaws Markup SpecMarkup MarkupCli
  SpecBytes.
Local Open Scope Z_scope.

Notation enc := (flat_map utf8_char).

(** * Lines *)
Lemma utf8_char_nl c : scalar_value c -> c <> 10 -> Forall (fun b => b <> 10) (utf8_char c).
Proof.
  intros [H _] N; unfold utf8_char.
  assert (0 <= c / 64 /\ 0 <= c mod 64 /\ 0 <= c / 4096 /\ 0 <= (c / 64) mod 64 /\
          0 <= c / 262144 /\ 0 <= (c / 4096) mod 64) as (?&?&?&?&?&?).
  { repeat split; try (apply Z.div_pos; lia); apply Z.mod_pos_bound; lia. }
  destruct (c <? 128); [|destruct (c <? 2048); [|destruct (c <? 65536)]];
    repeat constructor; lia.
Qed.

Lemma split_nl_app l r : Forall (fun b => b <> 10) l ->
  split_nl (l ++ r) = match split_nl r with [] => [l] | h :: t => (l ++ h) :: t end.
Proof.
  intros F; induction F as [|c l N _ IH]; cbn [app split_nl].
  - destruct (split_nl r) eqn:E; [now destruct (split_nl_nonnil r)|reflexivity].
  - destruct (Z.eqb_spec c 10) as [?|_]; [contradiction|]. rewrite IH. now destruct (split_nl r).
Qed.

Lemma split_nl_enc s : Forall scalar_value s -> split_nl (enc s) = map enc (split_nl s).
Proof.
  intros F; induction F as [|c s H _ IH]; [reflexivity|]. cbn [flat_map split_nl].
  destruct (Z.eqb_spec c 10) as [->|N].
  - change (utf8_char 10) with [10]. cbn. now rewrite IH.
  - rewrite split_nl_app by now apply utf8_char_nl. rewrite IH.
    destruct (split_nl s); cbn; now rewrite ?app_nil_r.
Qed.

Lemma removelast_map {A B} (f : A -> B) l : removelast (map f l) = map f (removelast l).
Proof. induction l as [|x [|y l] IH]; [reflexivity..|]. cbn in *. now rewrite IH. Qed.
Lemma last_map {A B} (f : A -> B) l d : last (map f l) (f d) = f (last l d).
Proof. induction l as [|x [|y l] IH]; [reflexivity..|]. cbn in *. now rewrite IH. Qed.

Lemma lines_of_enc s : Forall scalar_value s -> lines_of (enc s) = map enc (lines_of s).
Proof.
  intros F; unfold lines_of. rewrite split_nl_enc by exact F.
  rewrite removelast_map, map_map, map_app, map_map; f_equal.
  - apply map_ext; intros l. now rewrite flat_map_app.
  - cbn. f_equal. apply (last_map (fun l => enc l) _ []).
Qed.

Section B.
Variable re_w : Z -> bool.

Lemma texts_enc k s ts : k <> KNull -> Forall scalar_value s ->
  texts re_w k (CStr s) = Some ts -> texts re_w k (CBytes (enc s)) = Some (map enc ts).
Proof.
  intros Hk F; destruct k; cbn [texts]; [contradiction| | |].
  - intros H; injection H as <-. rewrite utf8_decode_encode by exact F. cbn. f_equal.
    rewrite map_map; apply map_ext; intros c; cbn. now rewrite app_nil_r.
  - cbn [raw]. intros H; injection H as <-. now rewrite lines_of_enc.
  - intros H; injection H as <-. now rewrite utf8_decode_encode.
Qed.

Lemma texts_scalar k s ts : Forall scalar_value s -> texts re_w k (CStr s) = Some ts ->
  Forall (Forall scalar_value) ts.
Proof.
  intros F H; apply texts_concat in H. cbn [raw] in H; subst s.
  induction ts as [|t ts IH]; [constructor|]. cbn in F; apply Forall_app in F as [F1 F2].
  constructor; auto.
Qed.
End B.

(** * Renaming texts to their UTF-8 *)
Definition side_teq (a b : list Z + list Z) : bool :=
  match a, b with inl x, inl y => teq x y | inr x, inr y => teq x y | _, _ => false end.
#[local] Instance Teq_side : Teq (list Z + list Z) := side_teq.
#[local] Instance TeqOk_side : TeqOk (list Z + list Z).
Proof.
  intros [x|x] [y|y]; cbn; try (split; discriminate);
    rewrite (teq_ok x y); split; congruence.
Qed.

Lemma enc_inj s t : Forall scalar_value s -> Forall scalar_value t -> enc s = enc t -> s = t.
Proof.
  intros F G H. apply utf8_decode_encode in F; apply utf8_decode_encode in G. congruence.
Qed.

Definition scalarb (t : list Z) : bool :=
  forallb (fun c => is_chr c && negb (is_surrogate c)) t.
Lemma scalarb_ok t : scalarb t = true <-> Forall scalar_value t.
Proof.
  unfold scalarb; rewrite forallb_forall, Forall_forall.
  split; intros H x Hx; apply scalar_bool, H, Hx.
Qed.
Definition side (t : list Z) : list Z + list Z := if scalarb t then inr (enc t) else inl t.
Lemma side_inj x y : side x = side y -> x = y.
Proof.
  unfold side; destruct (scalarb x) eqn:X, (scalarb y) eqn:Y; intros H; try discriminate.
  - injection H; apply enc_inj; now apply scalarb_ok.
  - now injection H.
Qed.
Lemma side_scalar ts : Forall (Forall scalar_value) ts -> map side ts = map inr (map enc ts).
Proof.
  rewrite map_map. intros F; induction F as [|t ts H _ IH]; cbn; [reflexivity|].
  unfold side at 1. rewrite (proj2 (scalarb_ok t) H). now rewrite IH.
Qed.

Lemma map_inr_inj {A B} (l l' : list B) : map (@inr A B) l = map inr l' -> l = l'.
Proof.
  revert l'; induction l as [|x l IH]; intros [|y l'] H; try discriminate; [reflexivity|].
  cbn in H; injection H as -> H; f_equal; auto.
Qed.

Lemma diff_enc o m D : Forall (Forall scalar_value) o -> Forall (Forall scalar_value) m ->
  diff_token_sequences o m = Ok D ->
  diff_token_sequences (map enc o) (map enc m) = Ok (map (ditem_map enc) D) /\
  Forall (fun i => match i with
                   | DText t => Forall (Forall scalar_value) t
                   | DChange a b => Forall (Forall scalar_value) a /\ Forall (Forall scalar_value) b
                   end) D.
Proof.
  intros Fo Fm HD.
  assert (FD : Forall (fun i => match i with
                   | DText t => Forall (Forall scalar_value) t
                   | DChange a b => Forall (Forall scalar_value) a /\ Forall (Forall scalar_value) b
                   end) D).
  { destruct (diff_accounts o m) as [D' [HD' [B A]]]. rewrite HD in HD'; injection HD' as <-.
    rewrite <- B in Fo; rewrite <- A in Fm. clear - Fo Fm.
    unfold diff_before, diff_after in *.
    induction D as [|i D IH]; cbn [flat_map] in *; [constructor|].
    apply Forall_app in Fo as [F1 F2]; apply Forall_app in Fm as [F3 F4].
    constructor; [destruct i; auto|auto]. }
  split; [|exact FD].
  destruct (diff_accounts (map enc o) (map enc m)) as [D1 [H1 _]]. rewrite H1; f_equal.
  pose proof (diff_map side side_inj o m D HD) as G0.
  pose proof (diff_map (@inr (list Z) (list Z)) ltac:(intros; congruence) _ _ D1 H1) as G1.
  rewrite !side_scalar in G0 by assumption. rewrite G1 in G0. injection G0 as G.
  clear - FD G. revert D1 G.
  induction FD as [|i D Hi _ IH]; intros [|j D1] H; try discriminate; cbn [map] in *; [reflexivity|].
  injection H as H H'. f_equal; [|now apply IH].
  destruct i, j; cbn in H |- *; try discriminate; injection H; intros;
    repeat (destruct Hi as [Hi ?]);
    repeat match goal with
    | E : map inr _ = map side _ |- _ => rewrite side_scalar in E by assumption; apply map_inr_inj in E; subst
    end; reflexivity.
Qed.

Lemma present_enc D : Forall (fun i => match i with
                   | DText t => Forall (Forall scalar_value) t
                   | DChange a b => Forall (Forall scalar_value) a /\ Forall (Forall scalar_value) b
                   end) D ->
  map (present SBytes) (map (ditem_map enc) D) = map item_as_utf8 (map (present SStr) D).
Proof.
  intros _; rewrite !map_map; apply map_ext; intros [t|a b]; cbn; now rewrite !flat_map_pieces.
Qed.

Lemma scalar_real s : Forall scalar_value s -> real_contents (CStr s).
Proof. intros F; eapply Forall_impl; [|exact F]. now intros c [H _]. Qed.
Lemma enc_bytes s : Forall scalar_value s -> real_contents (CBytes (enc s)).
Proof.
  intros F; cbn; induction F as [|c s [H _] _ IH]; cbn [flat_map]; [constructor|].
  apply Forall_app; split; [|exact IH]. unfold utf8_char.
  pose proof (Z.mod_pos_bound c 64). pose proof (Z.mod_pos_bound (c/64) 64).
  pose proof (Z.mod_pos_bound (c/4096) 64).
  assert (0 <= c / 64 /\ 0 <= c / 4096 /\ 0 <= c / 262144) as (?&?&?)
    by (repeat split; apply Z.div_pos; lia).
  destruct (Z.ltb_spec c 128); [|destruct (Z.ltb_spec c 2048); [|destruct (Z.ltb_spec c 65536)]];
    repeat constructor; try lia.
  - assert (c / 64 < 32) by (apply Z.div_lt_upper_bound; lia). lia.
  - assert (c / 4096 < 16) by (apply Z.div_lt_upper_bound; lia). lia.
  - assert (c / 262144 < 5) by (apply Z.div_lt_upper_bound; lia). lia.
Qed.

Section C.
Variable re_w : Z -> bool.

(** C87 *)
Theorem diff_utf8 k before0 before1 o m :
  k <> KNull -> utf8_text o -> utf8_text m ->
  Forall real_contents before0 -> Forall (fun x => kind_of x = SStr) before0 ->
  Forall real_contents before1 -> Forall (fun x => kind_of x = SBytes) before1 ->
  exists st0 st1 d,
    diff re_w k (after re_w k new_tokenizer before0) o m = (st0, Ok d) /\
    diff re_w k (after re_w k new_tokenizer before1) (as_utf8 o) (as_utf8 m) = (st1, Ok (map item_as_utf8 d)) /\
    utf8_pieces d.
Proof.
  intros Hk Uo Um R0 K0 R1 K1.
  destruct o as [|o]; [contradiction|]; destruct m as [|m]; [contradiction|]; cbn [utf8_text as_utf8] in *.
  assert (Eo : encodable k (CStr o)) by (split; [now apply scalar_real|destruct k; exact Logic.I]).
  assert (Em : encodable k (CStr m)) by (split; [now apply scalar_real|destruct k; exact Logic.I]).
  assert (Eo' : encodable k (CBytes (enc o))).
  { split; [now apply enc_bytes|]. destruct k; auto; exists o; auto. }
  assert (Em' : encodable k (CBytes (enc m))).
  { split; [now apply enc_bytes|]. destruct k; auto; exists m; auto. }
  destruct (after_ok re_w k before0 _ new_ok R0) as [O0 _].
  destruct (after_ok re_w k before1 _ new_ok R1) as [O1 _].
  assert (F0 : fits (after re_w k new_tokenizer before0) (CStr o))
    by (apply after_fits; auto using new_ok; now left).
  assert (F1 : fits (after re_w k new_tokenizer before1) (CBytes (enc o)))
    by (apply after_fits; auto using new_ok; now left).
  destruct (TokenizersDiff.diff_ok re_w k _ (CStr o) (CStr m) O0 F0 eq_refl Eo Em) as [s0 [a [b [D [A [B [HD E0]]]]]]].
  destruct (TokenizersDiff.diff_ok re_w k _ (CBytes (enc o)) (CBytes (enc m)) O1 F1 eq_refl Eo' Em') as [s1 [a' [b' [D' [A' [B' [HD' E1]]]]]]].
  exists s0, s1, (map (present SStr) D); split; [exact E0|].
  rewrite (texts_enc re_w k o a) in A' by assumption. rewrite (texts_enc re_w k m b) in B' by assumption.
  injection A' as <-; injection B' as <-.
  destruct (diff_enc a b D (texts_scalar re_w k o a Uo A) (texts_scalar re_w k m b Um B) HD) as [G F].
  rewrite HD' in G; injection G as ->. split.
  - rewrite E1. do 2 f_equal. cbn [kind_of]. now apply present_enc.
  - clear - F. unfold utf8_pieces. apply Forall_map. eapply Forall_impl; [|exact F].
    assert (X : forall t, Forall (Forall scalar_value) t -> Forall scalar_value (concat t)).
    { intros t H; induction H; cbn; [constructor|]. apply Forall_app; auto. }
    intros [t|x y]; cbn; [auto|]. intros [? ?]; auto.
Qed.

(** C88: without a tokenizer *)
Lemma texts_ascii l : ascii l -> texts re_w KChar (CBytes l) = texts re_w KNull (CBytes l).
Proof.
  intros F; cbn.
  assert (D : enc l = l).
  { induction F as [|x l H _ IH]; [reflexivity|]. cbn; rewrite IH. unfold utf8_char.
    destruct (Z.ltb_spec x 128); [reflexivity|lia]. }
  assert (S : Forall scalar_value l).
  { eapply Forall_impl; [|exact F]. intros x H; cbn in H; unfold scalar_value; lia. }
  rewrite <- D at 1. rewrite utf8_decode_encode by exact S. cbn. f_equal.
  clear - F. induction F as [|x l H _ IH]; [reflexivity|]. cbn; rewrite IH. unfold utf8_char.
  destruct (Z.ltb_spec x 128); [reflexivity|lia].
Qed.

Theorem diff_char_null before0 before1 o m :
  real_contents o -> real_contents m -> kind_of m = kind_of o ->
  (kind_of o = SBytes -> ascii (raw o) /\ ascii (raw m)) ->
  Forall real_contents before0 -> Forall (fun x => kind_of x = kind_of o) before0 ->
  Forall real_contents before1 -> Forall (fun x => kind_of x = kind_of o) before1 ->
  snd (diff re_w KChar (after re_w KChar new_tokenizer before0) o m) =
  snd (diff re_w KNull (after re_w KNull new_tokenizer before1) o m).
Proof.
  intros Ro Rm Hk Ha R0 K0 R1 K1.
  assert (En : encodable KNull o) by (split; auto; now destruct o).
  assert (Mn : encodable KNull m) by (split; auto; now destruct m).
  assert (T : texts re_w KChar o = texts re_w KNull o /\ texts re_w KChar m = texts re_w KNull m).
  { destruct o as [o|o], m as [m|m]; try discriminate; cbn [kind_of raw] in *; [|auto].
    destruct (Ha eq_refl). split; now apply texts_ascii. }
  destruct T as [To Tm].
  assert (Ec : encodable KChar o) by (eapply encodable_texts; [assumption|rewrite To; reflexivity]).
  assert (Mc : encodable KChar m) by (eapply encodable_texts; [assumption|rewrite Tm; reflexivity]).
  destruct (after_ok re_w KChar before0 _ new_ok R0) as [O0 _].
  destruct (after_ok re_w KNull before1 _ new_ok R1) as [O1 _].
  assert (F0 : fits (after re_w KChar new_tokenizer before0) o)
    by (apply after_fits; auto using new_ok; now left).
  assert (F1 : fits (after re_w KNull new_tokenizer before1) o)
    by (apply after_fits; auto using new_ok; now left).
  destruct (TokenizersDiff.diff_ok re_w KChar _ o m O0 F0 (eq_sym Hk) Ec Mc) as [s0 [a [b [D [A [B [HD ->]]]]]]].
  destruct (TokenizersDiff.diff_ok re_w KNull _ o m O1 F1 (eq_sym Hk) En Mn) as [s1 [a' [b' [D' [A' [B' [HD' ->]]]]]]].
  cbn [snd]; congruence.
Qed.
End C.

(** C88 for merges *)
Theorem merge_char_null re_w o p c t : o_words o = false -> o_lines o = false ->
  real_text p -> real_text c -> real_text t ->
  exists m, merge_token_sequence KStr p c t = Ok m /\ merge_result re_w o p c t = Ok (map as_str_item m).
Proof.
  intros W L Rp Rc Rt. unfold merge_result.
  replace (tokenizer_of o) with KChar by (unfold tokenizer_of; now rewrite W, L).
  destruct (three re_w KChar p c t Rp Rc Rt) as
    [s1 [s2 [st [ep [ec [et [tp [tc [tt [E1 [E2 [E3 [O [R [Hsrc [Np [Nc [Nt [Tp [Tc Tt]]]]]]]]]]]]]]]]]]]].
  rewrite E1, E2, E3. cbn [bind].
  cbn in Tp, Tc, Tt. injection Tp as <-; injection Tc as <-; injection Tt as <-.
  destruct (merge_total KTuple p c t) as [m Hm]; [discriminate|].
  exists m; split.
  { destruct (merge_kind KTuple p c t) as [H|[H _]]; [congruence|discriminate]. }
  pose proof (merge_map (fun x : Z => [x]) ltac:(intros; congruence) KTuple p c t) as H. rewrite Hm in H.
  rewrite (merge_texts KChar st ep ec et _ _ _ _ O R Np Nc Nt H), Hsrc, map_map. f_equal.
  apply map_ext; intros [x|x y]; cbn; now rewrite !concat_singletons.
Qed.
