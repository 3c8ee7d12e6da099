(** Proofs about the tokenizers: every encoding is a renaming of the token texts. *)
From Coq Require Import ZArith Lia.
From Verif Require Import Base Changesets ChangesetsProofs SpecDiff DiffLaws DiffProofs Tokenizers SpecTokenizers Utf8Proofs.
Local Open Scope Z_scope.

Lemma nth_error_nil {A} i : nth_error (@nil A) i = None.
Proof. now destruct i. Qed.

Section Dicts.
Notation edict := (dict (list Z) Z).
Definition enum_ok (enc : edict) : Prop :=
  NoDup (dkeys enc) /\ (forall i t v, nth_error enc i = Some (t, v) -> v = Z.of_nat i).

Lemma dset_new {K V} {E : Teq K} (d : dict K V) k v : dget d k = None -> dset d k v = d ++ [(k, v)].
Proof.
  induction d as [|[k' v'] d IH]; cbn; [reflexivity|].
  destruct (teq k' k); [discriminate|]. intros H; now rewrite IH.
Qed.

Lemma enum_dget enc t v : enum_ok enc -> dget enc t = Some v ->
  0 <= v /\ nth_error (dkeys enc) (Z.to_nat v) = Some t.
Proof.
  intros [N H] G. apply dget_In in G. apply In_nth_error in G as [i Hi].
  pose proof (H _ _ _ Hi) as ->. split; [lia|].
  rewrite Nat2Z.id. unfold dkeys; now rewrite (map_nth_error fst i enc Hi).
Qed.

Lemma enc_add_ok enc t : enum_ok enc ->
  enum_ok (enc_add enc t) /\ (exists ext, enc_add enc t = enc ++ ext) /\ dmem (enc_add enc t) t = true.
Proof.
  intros [N H]; unfold enc_add; destruct (dmem enc t) eqn:M.
  - split; [now split|]. split; [exists []; now rewrite app_nil_r|exact M].
  - assert (G : dget enc t = None) by (unfold dmem in M; destruct (dget enc t); [discriminate|reflexivity]).
    split; [split|split].
    + now apply NoDup_dset.
    + rewrite dset_new by exact G. intros i t' v' Hi.
      destruct (Nat.lt_ge_cases i (length enc)) as [L|L].
      * rewrite nth_error_app1 in Hi by exact L; now apply H in Hi.
      * rewrite nth_error_app2 in Hi by exact L.
        destruct (i - length enc)%nat eqn:D; cbn in Hi; [|now rewrite nth_error_nil in Hi].
        injection Hi as <- <-. f_equal; lia.
    + exists [(t, Z.of_nat (length enc))]; now apply dset_new.
    + unfold dmem; now rewrite dget_dset_same.
Qed.

Lemma dget_app {K V} {E : Teq K} (d e : dict K V) k v : dget d k = Some v -> dget (d ++ e) k = Some v.
Proof.
  induction d as [|[k' v'] d IH]; cbn; [discriminate|]. destruct (teq k' k); auto.
Qed.

Lemma enc_fold_ok ts : forall enc, enum_ok enc ->
  enum_ok (fold_left enc_add ts enc) /\ (exists ext, fold_left enc_add ts enc = enc ++ ext) /\
  Forall (fun t => dmem (fold_left enc_add ts enc) t = true) ts.
Proof.
  induction ts as [|t ts IH]; intros enc H; cbn [fold_left].
  - split; [exact H|split; [exists []; now rewrite app_nil_r|constructor]].
  - destruct (enc_add_ok enc t H) as [H1 [[e1 E1] M]].
    destruct (IH _ H1) as [H2 [[e2 E2] F]].
    split; [exact H2|split].
    + exists (e1 ++ e2). now rewrite E2, E1, app_assoc.
    + constructor; [|exact F]. rewrite E2. unfold dmem in *.
      destruct (dget (enc_add enc t) t) eqn:G; [|discriminate].
      now rewrite (dget_app _ _ _ _ G).
Qed.

Lemma lookup_all_ok enc ts : Forall (fun t => dmem enc t = true) ts ->
  exists toks, lookup_all enc ts = Ok toks /\ Forall2 (fun v t => dget enc t = Some v) toks ts.
Proof.
  induction 1 as [|t ts M _ [toks [E F]]]; cbn [lookup_all]; [exists []; auto|].
  unfold dmem in M; destruct (dget enc t) as [v|] eqn:G; [|discriminate].
  rewrite E; exists (v :: toks); auto.
Qed.
End Dicts.

Lemma map_res_ok {A B} (f : A -> res B) l r : Forall2 (fun x y => f x = Ok y) l r -> map_res f l = Ok r.
Proof. induction 1 as [|x y l r H _ IH]; cbn [map_res]; [reflexivity|]. now rewrite H; cbn [bind]; rewrite IH. Qed.

Lemma Forall2_weak {A B} (P Q : A -> B -> Prop) l r :
  (forall x y, P x y -> Q x y) -> Forall2 P l r -> Forall2 Q l r.
Proof. intros H; induction 1; constructor; auto. Qed.

Section Toks.
Variable re_w : Z -> bool.

(** the token texts of some contents *)
Definition texts (k : tkind) (c : contents) : option (list (list Z)) :=
  match k, c with
  | KNull, _ => Some (map (fun x => [x]) (raw c))
  | KChar, CBytes b => option_map (map utf8_char) (utf8_decode b)
  | KChar, CStr s => Some (map (fun x => [x]) s)
  | KLine, _ => Some (lines_of (raw c))
  | KSymbol, CBytes b => option_map (fun s => map (flat_map utf8_char) (symbols_of re_w s)) (utf8_decode b)
  | KSymbol, CStr s => Some (symbols_of re_w s)
  end.

Lemma flat_map_pieces {A B} (f : A -> list B) l : flat_map f (concat l) = concat (map (flat_map f) l).
Proof. induction l as [|x l IH]; cbn; [reflexivity|]. now rewrite flat_map_app, IH. Qed.
Lemma concat_singletons {A} (l : list A) : concat (map (fun x => [x]) l) = l.
Proof. induction l as [|x l IH]; cbn; [reflexivity|now rewrite IH]. Qed.

Lemma texts_concat k c ts : texts k c = Some ts -> concat ts = raw c.
Proof.
  destruct k, c as [b|s]; cbn; intros H.
  - injection H as <-; apply concat_singletons.
  - injection H as <-; apply concat_singletons.
  - destruct (utf8_decode b) as [s|] eqn:D; [|discriminate]. injection H as <-.
    apply utf8_decode_ok in D as [_ ->]. cbn; now rewrite flat_map_concat_map.
  - injection H as <-; apply concat_singletons.
  - injection H as <-; apply lines_of_concat.
  - injection H as <-; apply lines_of_concat.
  - destruct (utf8_decode b) as [s|] eqn:D; [|discriminate]. injection H as <-.
    apply utf8_decode_ok in D as [_ ->]. now rewrite <- flat_map_pieces, symbols_of_concat.
  - injection H as <-; apply symbols_of_concat.
Qed.

(** a tokenizer's state is consistent *)
Definition st_ok (st : tstate) : Prop :=
  enum_ok (encoding st) /\ (forall d, decoding st = Some d -> d = dkeys (encoding st)).

Lemma new_ok : st_ok new_tokenizer.
Proof.
  split; [split|]; cbn; [constructor| |discriminate].
  intros i t v H; now rewrite nth_error_nil in H.
Qed.

(** the text of a token *)
Definition name (k : tkind) (st : tstate) (t : Z) : option (list Z) :=
  match k with
  | KNull => Some [t]
  | KChar => match src st with
             | SBytes => if is_chr t && negb (is_surrogate t) then Some (utf8_char t) else None
             | SStr => if is_chr t then Some [t] else None
             end
  | KLine | KSymbol => match decoding st with
                       | None => None
                       | Some d => if 0 <=? t then nth_error d (Z.to_nat t) else None
                       end
  end.
Definition ready (k : tkind) (st : tstate) : Prop :=
  match k with KLine | KSymbol => decoding st <> None | _ => True end.

Lemma scalar_bool t : is_chr t && negb (is_surrogate t) = true <-> scalar_value t.
Proof.
  unfold is_chr, is_surrogate, scalar_value; split.
  - intros H; bz; match goal with D : _ \/ _ |- _ => destruct D end; bz; lia.
  - intros [H1 H2]; apply Bool.andb_true_iff; split; [apply Bool.andb_true_iff; split; apply Z.leb_le; lia|].
    apply Bool.negb_true_iff, Bool.andb_false_iff.
    destruct (Z.lt_ge_cases t 55296); [left; apply Z.leb_gt; lia|right; apply Z.leb_gt; lia].
Qed.

Lemma name_inj k st t t' x : st_ok st -> name k st t = Some x -> name k st t' = Some x -> t = t'.
Proof.
  intros [[N _] D]; destruct k; cbn.
  - congruence.
  - destruct (src st).
    + destruct (is_chr t && _) eqn:C; [|discriminate]; destruct (is_chr t' && _) eqn:C'; [|discriminate].
      apply scalar_bool in C, C'. intros H H'. apply utf8_char_inj; congruence.
    + destruct (is_chr t), (is_chr t'); congruence.
  - destruct (decoding st) as [d|]; [|discriminate]. rewrite (D d eq_refl).
    destruct (0 <=? t) eqn:L; [|discriminate]; destruct (0 <=? t') eqn:L'; [|discriminate]; bz.
    intros H H'. assert (Z.to_nat t = Z.to_nat t').
    { eapply NoDup_nth_error; [exact N| |congruence].
      apply nth_error_Some; congruence. }
    lia.
  - destruct (decoding st) as [d|]; [|discriminate]. rewrite (D d eq_refl).
    destruct (0 <=? t) eqn:L; [|discriminate]; destruct (0 <=? t') eqn:L'; [|discriminate]; bz.
    intros H H'. assert (Z.to_nat t = Z.to_nat t').
    { eapply NoDup_nth_error; [exact N| |congruence].
      apply nth_error_Some; congruence. }
    lia.
Qed.

(** later calls keep earlier tokens *)
Definition extends (st st' : tstate) : Prop :=
  (exists ext, encoding st' = encoding st ++ ext) /\
  (source_type st <> None -> source_type st' = source_type st) /\
  (decoding st <> None -> decoding st' <> None).
Lemma extends_refl st : extends st st.
Proof. split; [exists []; now rewrite app_nil_r|auto]. Qed.
Lemma extends_trans a b c : extends a b -> extends b c -> extends a c.
Proof.
  intros [[e E] [S D]] [[e' E'] [S' D']]; split; [exists (e ++ e'); now rewrite E', E, app_assoc|].
  split; [|auto]. intros H; rewrite S' ; [auto|]. now rewrite S.
Qed.

Lemma name_extends k st st' t x : st_ok st -> st_ok st' -> extends st st' -> source_type st <> None ->
  name k st t = Some x -> name k st' t = Some x.
Proof.
  intros [_ D] [_ D'] [[ext E] [S N]] Hs; unfold name, src; rewrite (S Hs).
  destruct k; auto.
  - destruct (decoding st) as [d|] eqn:Ed; [|discriminate].
    destruct (decoding st') as [d'|] eqn:Ed'; [|exfalso; apply N; [discriminate|reflexivity]].
    rewrite (D d eq_refl), (D' d' eq_refl), E. destruct (0 <=? t); [|discriminate].
    unfold dkeys; rewrite map_app; intros H; rewrite nth_error_app1; [exact H|]. apply nth_error_Some; congruence.
  - destruct (decoding st) as [d|] eqn:Ed; [|discriminate].
    destruct (decoding st') as [d'|] eqn:Ed'; [|exfalso; apply N; [discriminate|reflexivity]].
    rewrite (D d eq_refl), (D' d' eq_refl), E. destruct (0 <=? t); [|discriminate].
    unfold dkeys; rewrite map_app; intros H; rewrite nth_error_app1; [exact H|]. apply nth_error_Some; congruence.
Qed.

Notation names k st := (Forall2 (fun t x => name k st t = Some x)).

Lemma py_index_nat {A} (l : list A) i x : 0 <= i -> nth_error l (Z.to_nat i) = Some x -> py_index l i = Ok x.
Proof.
  intros Hi H; unfold py_index. rewrite (proj2 (Z.ltb_ge i 0)) by lia.
  assert (Z.to_nat i < length l)%nat by (apply nth_error_Some; congruence).
  rewrite (proj2 (Z.leb_le 0 i)), (proj2 (Z.ltb_lt i _)) by lia. cbn [andb]; now rewrite H.
Qed.

Lemma decode_names k st toks ts : ready k st -> names k st toks ts ->
  decode k st toks = Ok (mk (src st) (concat ts)).
Proof.
  intros R F; destruct k; cbn [decode].
  - do 2 f_equal. induction F as [|t x toks ts H _ IH]; [reflexivity|].
    cbn in H; injection H as <-; cbn; now rewrite IH by exact I.
  - assert (M : map_res (match src st with SBytes => chr_utf8 | SStr => chr end) toks = Ok ts).
    { apply map_res_ok. eapply Forall2_weak; [|exact F]; cbn.
      intros t x; destruct (src st).
      - destruct (is_chr t && _) eqn:C; [|discriminate]. intros H; injection H as <-.
        unfold chr_utf8, chr, utf8_encode. apply andb_prop in C as [C1 C2]. rewrite C1; cbn [bind existsb].
        apply Bool.negb_true_iff in C2; rewrite C2; cbn [orb flat_map]. now rewrite app_nil_r.
      - unfold chr; destruct (is_chr t); [|discriminate]. intros H; now injection H as <-. }
    rewrite M; reflexivity.
  - destruct (decoding st) as [d|] eqn:D; [|now destruct R].
    unfold generic_decode. rewrite (map_res_ok _ toks ts); [reflexivity|].
    eapply Forall2_weak; [|exact F]; cbn; rewrite D; intros t x H.
    destruct (0 <=? t) eqn:L; [|discriminate]; bz; now apply py_index_nat.
  - destruct (decoding st) as [d|] eqn:D; [|now destruct R].
    unfold generic_decode. rewrite (map_res_ok _ toks ts); [reflexivity|].
    eapply Forall2_weak; [|exact F]; cbn; rewrite D; intros t x H.
    destruct (0 <=? t) eqn:L; [|discriminate]; bz; now apply py_index_nat.
Qed.

Lemma generic_encode_ok k st ts : k = KLine \/ k = KSymbol -> st_ok st ->
  exists st' toks, generic_encode st ts = (st', Ok toks) /\ st_ok st' /\ extends st st' /\
    source_type st' = source_type st /\ ready k st' /\ names k st' toks ts.
Proof.
  intros Hk [E D]; unfold generic_encode.
  destruct (enc_fold_ok ts (encoding st) E) as [E' [X F]].
  destruct (lookup_all_ok _ _ F) as [toks [L N]]; rewrite L.
  eexists _, toks; split; [reflexivity|].
  split; [split; [exact E'|intros d' Hd'; cbn in Hd'; now injection Hd' as <-]|].
  split; [split; [exact X|split; [reflexivity|discriminate]]|].
  split; [reflexivity|]. split; [destruct Hk as [-> | ->]; discriminate|].
  eapply Forall2_weak; [|exact N]; intros v t G.
  apply (enum_dget _ _ _ E') in G as [G1 G2].
  destruct Hk as [-> | ->]; cbn; now rewrite (proj2 (Z.leb_le 0 v)) by lia.
Qed.

Lemma symbols_scalar s : Forall scalar_value s ->
  map_res utf8_encode (symbols_of re_w s) = Ok (map (flat_map utf8_char) (symbols_of re_w s)).
Proof.
  intros F. rewrite <- (symbols_of_concat re_w s) in F.
  induction (symbols_of re_w s) as [|t l IH]; cbn [concat map_res map] in *; [reflexivity|].
  apply Forall_app in F as [Ft Fl]. unfold utf8_encode at 1.
  replace (existsb is_surrogate t) with false; [cbn [bind]; now rewrite (IH Fl)|].
  symmetry; apply Bool.not_true_iff_false; intros C; apply existsb_exists in C as [c [Hc S]].
  rewrite Forall_forall in Ft. apply Ft in Hc. apply scalar_bool in Hc.
  rewrite S in Hc; now destruct (is_chr c).
Qed.

Lemma encode_body_ok k st c ts : st_ok st -> source_type st = Some (kind_of c) -> real_contents c ->
  texts k c = Some ts ->
  exists st' toks, encode_body re_w k st c = (st', Ok toks) /\ st_ok st' /\ extends st st' /\
    source_type st' = source_type st /\ ready k st' /\ names k st' toks ts.
Proof.
  intros Hst Hs Hr Ht; destruct k; cbn [encode_body].
  - exists st, (raw c); cbn in Ht; injection Ht as <-.
    repeat split; auto using extends_refl; try apply Hst; [exists []; now rewrite app_nil_r|].
    induction (raw c) as [|x l IH]; cbn; constructor; auto.
  - destruct c as [b|s]; cbn in *.
    + destruct (utf8_decode b) as [s|] eqn:D; [|discriminate]; injection Ht as <-.
      exists st, s; split; [reflexivity|]. split; [exact Hst|]. split; [apply extends_refl|].
      split; [reflexivity|]. split; [exact I|].
      apply utf8_decode_ok in D as [F _]. unfold src; rewrite Hs.
      induction F as [|x l Hx _ IH]; cbn [map]; constructor; [|exact IH].
      now rewrite (proj2 (scalar_bool x) Hx).
    + injection Ht as <-. exists st, s; split; [reflexivity|]. split; [exact Hst|]. split; [apply extends_refl|].
      split; [reflexivity|]. split; [exact I|].
      unfold src; rewrite Hs. induction Hr as [|x l Hx _ IH]; cbn [map]; constructor; [|exact IH].
      unfold is_chr. now rewrite !(proj2 (Z.leb_le _ _)) by lia.
  - cbn in Ht; injection Ht as <-. apply generic_encode_ok; auto.
  - destruct c as [b|s]; cbn in *.
    + destruct (utf8_decode b) as [s|] eqn:D; [|discriminate]; injection Ht as <-.
      apply utf8_decode_ok in D as [F _]. rewrite symbols_scalar by exact F.
      apply (generic_encode_ok KSymbol); auto.
    + injection Ht as <-. apply (generic_encode_ok KSymbol); auto.
Qed.

Lemma kind_eqb_refl s : skind_eqb s s = true. Proof. now destruct s. Qed.
Lemma kind_eqb_eq s t : skind_eqb s t = true -> s = t. Proof. now destruct s, t. Qed.

Definition fits (st : tstate) (c : contents) : Prop :=
  source_type st = None \/ source_type st = Some (kind_of c).

Lemma encode_ok k st c ts : st_ok st -> fits st c -> real_contents c -> texts k c = Some ts ->
  exists st' toks, encode re_w k st c = (st', Ok toks) /\ st_ok st' /\ extends st st' /\
    source_type st' = Some (kind_of c) /\ ready k st' /\ names k st' toks ts.
Proof.
  intros Hst Hf Hr Ht; unfold encode; destruct Hf as [Hf|Hf]; rewrite Hf.
  - set (st1 := mkT (Some (kind_of c)) (encoding st) (decoding st)).
    destruct (encode_body_ok k st1 c ts Hst eq_refl Hr Ht) as [st' [toks [E [O [X [S R]]]]]].
    exists st', toks; split; [exact E|]. split; [exact O|]. split; [|auto].
    destruct X as [X1 [X2 X3]]; split; [exact X1|split; [congruence|exact X3]].
  - rewrite kind_eqb_refl.
    destruct (encode_body_ok k st c ts Hst Hf Hr Ht) as [st' [toks [E [O [X [S R]]]]]].
    exists st', toks; split; [exact E|]. split; [exact O|]. split; [exact X|]. split; [congruence|exact R].
Qed.

(** calls that fail change nothing but perhaps the recorded type *)
Lemma encode_step k st c : st_ok st -> real_contents c ->
  let st' := fst (encode re_w k st c) in
  st_ok st' /\ extends st st' /\
  (source_type st' = source_type st \/ (source_type st = None /\ source_type st' = Some (kind_of c))) /\
  match snd (encode re_w k st c) with
  | Ok toks => fits st c /\ source_type st' = Some (kind_of c) /\ ready k st' /\
       exists ts, texts k c = Some ts /\ names k st' toks ts
  | Err e => (e = RuntimeError /\ ~ fits st c) \/ (e = UnicodeDecodeError /\ fits st c /\ texts k c = None)
  end.
Proof.
  intros Hst Hr. 
  assert (Hfit : fits st c \/ (exists t, source_type st = Some t /\ skind_eqb t (kind_of c) = false)).
  { unfold fits; destruct (source_type st) as [t|]; [|auto].
    destruct (skind_eqb t (kind_of c)) eqn:Q; [apply kind_eqb_eq in Q; subst; auto|eauto]. }
  destruct Hfit as [Hf|[t [Ht Q]]].
  - destruct (texts k c) as [ts|] eqn:Ht.
    + destruct (encode_ok k st c ts Hst Hf Hr Ht) as [st' [toks [E [O [X [S [R N]]]]]]].
      rewrite E; cbn [fst snd]. split; [exact O|]. split; [exact X|]. split.
      * destruct Hf as [Hf|Hf]; [right; auto|left; congruence].
      * split; [exact Hf|]. split; [exact S|]. split; [exact R|]. eauto.
    + assert (Hb : forall st1, encode_body re_w k st1 c = (st1, Err UnicodeDecodeError)).
      { intros st1; destruct k, c; cbn in *; try discriminate; destruct (utf8_decode b); try discriminate; reflexivity. }
      unfold encode; destruct Hf as [Hf|Hf]; rewrite Hf, ?kind_eqb_refl, Hb; cbn [fst snd].
      * split; [exact Hst|]. split; [split; [exists []; cbn; now rewrite app_nil_r|split; [congruence|auto]]|].
        split; [right; auto|right; split; [reflexivity|split; [now left|reflexivity]]].
      * split; [exact Hst|]. split; [apply extends_refl|]. split; [left; congruence|].
        right; split; [reflexivity|split; [now right|reflexivity]].
  - unfold encode; rewrite Ht, Q; cbn [fst snd].
    split; [exact Hst|]. split; [apply extends_refl|]. split; [left; congruence|].
    left; split; [reflexivity|]. unfold fits; intros [C|C]; [congruence|].
    rewrite Ht in C; injection C as ->; now rewrite kind_eqb_refl in Q.
Qed.

Lemma texts_encodable k c : encodable k c -> exists ts, texts k c = Some ts.
Proof.
  intros [_ H]; destruct k, c; cbn in *; eauto;
    apply is_utf8_decode in H as [l Hl]; rewrite Hl; cbn; eauto.
Qed.
Lemma encodable_texts k c ts : real_contents c -> texts k c = Some ts -> encodable k c.
Proof.
  intros Hr H; split; [exact Hr|]; destruct k, c; cbn in *; auto; apply is_utf8_decode;
  destruct (utf8_decode b); try discriminate; eauto.
Qed.

Lemma after_ok k calls : forall st, st_ok st -> Forall real_contents calls ->
  st_ok (after re_w k st calls) /\ extends st (after re_w k st calls).
Proof.
  induction calls as [|c calls IH]; intros st Hst F; cbn [after fold_left]; [auto using extends_refl|].
  inversion F; subst.
  destruct (encode_step k st c Hst ltac:(assumption)) as [O [X _]].
  destruct (IH _ O ltac:(assumption)) as [O' X']. split; [exact O'|].
  eapply extends_trans; eauto.
Qed.

(** * C46 *)
Lemma src_mk st c : source_type st = Some (kind_of c) -> mk (src st) (raw c) = c.
Proof. intros H; unfold src; rewrite H; now destruct c. Qed.

Lemma names_extends k st st' toks ts : st_ok st -> st_ok st' -> extends st st' -> source_type st <> None ->
  names k st toks ts -> names k st' toks ts.
Proof.
  intros O O' X S F; eapply Forall2_weak; [|exact F]; intros t x Hn; now apply (name_extends k st st').
Qed.
Lemma ready_extends k st st' : extends st st' -> ready k st -> ready k st'.
Proof. intros [_ [_ D]]; destruct k; cbn; auto. Qed.

Theorem round_trip k before c later st' toks :
  Forall real_contents before -> real_contents c -> Forall real_contents later ->
  encode re_w k (after re_w k new_tokenizer before) c = (st', Ok toks) ->
  decode k (after re_w k st' later) toks = Ok c.
Proof.
  intros Fb Hc Fl E.
  destruct (after_ok k before _ new_ok Fb) as [O _].
  pose proof (encode_step k _ c O Hc) as Hs; rewrite E in Hs; cbn [fst snd] in Hs.
  destruct Hs as [O' [_ [_ [_ [S [R [ts [Ht N]]]]]]]].
  destruct (after_ok k later st' O' Fl) as [O2 X2].
  assert (Hn : source_type st' <> None) by congruence.
  rewrite (decode_names k _ toks ts); [|now apply (ready_extends k st')|now apply (names_extends k st')].
  f_equal. rewrite (texts_concat _ _ _ Ht). apply src_mk.
  destruct X2 as [_ [X2 _]]; now rewrite X2.
Qed.

Lemma after_fits k c calls : forall st, st_ok st -> fits st c ->
  Forall real_contents calls -> Forall (fun x => kind_of x = kind_of c) calls ->
  fits (after re_w k st calls) c.
Proof.
  induction calls as [|x calls IH]; intros st Hst Hf F1 F2; cbn [after fold_left]; [exact Hf|].
  inversion F1; inversion F2; subst.
  destruct (encode_step k st x Hst ltac:(assumption)) as [O [_ [S _]]].
  apply IH; auto. unfold fits in *. destruct S as [S|[_ S]]; rewrite S; [exact Hf|right; congruence].
Qed.

Theorem encodes k before c :
  Forall real_contents before -> Forall (fun x => kind_of x = kind_of c) before ->
  encodable k c ->
  exists st' toks, encode re_w k (after re_w k new_tokenizer before) c = (st', Ok toks).
Proof.
  intros F1 F2 Hc.
  destruct (after_ok k before _ new_ok F1) as [O _].
  destruct (texts_encodable k c Hc) as [ts Ht].
  assert (Hf : fits (after re_w k new_tokenizer before) c).
  { apply after_fits; auto using new_ok. now left. }
  destruct (encode_ok k _ c ts O Hf (proj1 Hc) Ht) as [st' [toks [E _]]]; eauto.
Qed.

(** * C47 *)
Lemma handed_out_named k calls : forall st, st_ok st -> Forall real_contents calls ->
  forall t, In t (handed_out re_w k st calls) ->
  exists x, name k (after re_w k st calls) t = Some x /\ ready k (after re_w k st calls).
Proof.
  induction calls as [|c calls IH]; intros st Hst F t Ht; cbn [handed_out] in Ht; [contradiction|].
  inversion F; subst. cbn [after fold_left].
  pose proof (encode_step k st c Hst ltac:(assumption)) as Hs.
  destruct (encode re_w k st c) as [st' [toks|e]]; cbn [fst snd] in *.
  - destruct Hs as [O [X [_ [_ [S [R [ts [_ N]]]]]]]].
    apply in_app_or in Ht as [Ht|Ht]; [|now apply IH].
    destruct (after_ok k calls st' O ltac:(assumption)) as [O2 X2].
    assert (Hx : exists x, name k st' t = Some x).
    { clear - N Ht. induction N; [contradiction|]. destruct Ht as [<-|Ht]; eauto. }
    destruct Hx as [x Hx]. exists x; split.
    + apply (name_extends k st'); auto. congruence.
    + now apply (ready_extends k st').
  - destruct Hs as [O _]. now apply IH.
Qed.

Theorem ids_are_texts k calls t t' :
  Forall real_contents calls ->
  In t (handed_out re_w k new_tokenizer calls) -> In t' (handed_out re_w k new_tokenizer calls) ->
  let st := after re_w k new_tokenizer calls in
  exists x x', decode k st [t] = Ok x /\ decode k st [t'] = Ok x' /\ (t = t' <-> x = x').
Proof.
  intros F H H' st.
  destruct (handed_out_named k calls _ new_ok F t H) as [x [Hx R]].
  destruct (handed_out_named k calls _ new_ok F t' H') as [x' [Hx' _]].
  destruct (after_ok k calls _ new_ok F) as [O _].
  exists (mk (src st) x), (mk (src st) x').
  rewrite (decode_names k st [t] [x]), (decode_names k st [t'] [x']) by (auto; repeat constructor; auto).
  cbn [concat]; rewrite !app_nil_r. split; [reflexivity|split; [reflexivity|]].
  split; [intros ->; unfold st in *; rewrite Hx in Hx'; now injection Hx' as ->|].
  intros Q. assert (x = x') by (destruct (src st); cbn in Q; congruence). subst x'.
  eapply name_inj; eauto.
Qed.
End Toks.
