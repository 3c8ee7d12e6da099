(** The room taken by the versions of a text that grows by whole words (C112). *)
From Coq Require Import ZArith Lia.
From Verif Require Import Base Changesets Serialize Tokenizers SpecTokenizers Utf8Proofs TokenizersProofs Tree TreeProofs TreeExact
  Versions SpecVersions SpecLineage VersionsPatch VersionsInv VersionsProofs VersionsMore SpecStorage StorageProofs VersionsLineage
  DbTree DbTreeProofs SpecDb DbVersions VersionsGrow.
Local Open Scope nat_scope.

Section Words.
Variable re_w : Z -> bool.
Notation texts := (TokenizersProofs.texts re_w KSymbol).

Lemma is_word_cases c : is_word re_w c = true -> (re_w c = true \/ c = 36 \/ c = 45)%Z.
Proof. unfold is_word. destruct (re_w c); [auto|]. cbn. destruct (Z.eqb_spec c 36); [auto|]. destruct (Z.eqb_spec c 45); [auto|discriminate]. Qed.
Lemma sym_seq_app a b : sym_seq re_w a -> sym_seq re_w b -> no_cut re_w (concat a) (concat b) -> sym_seq re_w (a ++ b).
Proof.
  intros A B N. induction A as [|t l Ht Hl IH|t l [Hn Ht] Hl IH Hs].
  - exact B.
  - cbn [app]. apply sym_single; [exact Ht|]. apply IH. intros a' x y b' Ha. apply (N (t ++ a') x y b'). cbn. rewrite Ha. now rewrite app_assoc.
  - cbn [app]. apply sym_word; [now split| |].
    + apply IH. intros a' x y b' Ha. apply (N (t ++ a') x y b'). cbn. rewrite Ha. now rewrite app_assoc.
    + intros t' l' Hl'. destruct l as [|u l]; [|injection Hl' as <- _; eapply Hs; reflexivity].
      cbn [app] in Hl'. subst b. inversion B as [|? ? S _|? ? [Wn W] _ _]; subst; [exact S|]. exfalso.
      destruct (exists_last Hn) as (a' & x & ->). destruct t' as [|y t']; [now destruct Wn|].
      apply Forall_app in Ht as [_ Ht]. inversion Ht; subst. inversion W; subst.
      apply (N a' x y (t' ++ concat l')); [cbn; now rewrite app_nil_r|reflexivity|now apply is_word_cases|now apply is_word_cases].
Qed.
Lemma symbols_app a b : no_cut re_w a b -> symbols_of re_w (a ++ b) = symbols_of re_w a ++ symbols_of re_w b.
Proof.
  intros N. rewrite <- (symbols_of_unique re_w (symbols_of re_w a ++ symbols_of re_w b)).
  - now rewrite concat_app, !symbols_of_concat.
  - apply sym_seq_app; [apply symbols_of_seq|apply symbols_of_seq|now rewrite !symbols_of_concat].
Qed.
Lemma no_cut_app a b c : b <> [] -> no_cut re_w a b -> no_cut re_w a (b ++ c).
Proof.
  intros Nb N a' x y b' Ha Hb. destruct b as [|z b]; [congruence|]. injection Hb as -> _. now apply (N a' x y b).
Qed.
Lemma words_inside p s q : Forall scalar_value (p ++ s ++ q) -> no_cut re_w p s -> no_cut re_w s q ->
  inside re_w KSymbol (p = []) (flat_map utf8_char s) (flat_map utf8_char (p ++ s ++ q)).
Proof.
  intros F N1 N2 t1 t2 T1 T2 Hn. pose proof F as F'. rewrite !Forall_app in F'. destruct F' as [_ [Fs _]].
  cbn in T1, T2. rewrite utf8_decode_encode in T1, T2 by assumption. cbn in T1, T2. injection T1 as <-. injection T2 as <-.
  destruct s as [|z s]; [now destruct Hn|].
  rewrite symbols_app by (apply no_cut_app; [discriminate|exact N1]). rewrite symbols_app by exact N2. rewrite !map_app.
  do 2 eexists. split; [reflexivity|]. now intros ->.
Qed.
Lemma inside_trans (P Q R : Prop) b1 b2 b3 : (exists t2, texts (CBytes b2) = Some t2) -> (R -> P /\ Q) ->
  inside re_w KSymbol P b1 b2 -> inside re_w KSymbol Q b2 b3 -> inside re_w KSymbol R b1 b3.
Proof.
  intros [t2 T2] HR A B t1 t3 T1 T3 N. destruct (A t1 t2 T1 T2 N) as (p & q & -> & Hp).
  destruct (B _ t3 T2 T3) as (p' & q' & -> & Hp').
  { intros X. apply app_eq_nil in X as [_ X]. apply app_eq_nil in X as [X _]. now apply N. }
  exists (p' ++ p), (q ++ q'). split; [now rewrite <- !app_assoc|].
  intros r. destruct (HR r) as [x y]. now rewrite (Hp x), (Hp' y).
Qed.
Lemma texts_encoded s : Forall scalar_value s -> exists t, texts (CBytes (flat_map utf8_char s)) = Some t.
Proof. intros F. cbn. rewrite utf8_decode_encode by exact F. eexists; reflexivity. Qed.

Section Hist.
Context {K : Type} {E : Teq K} {O : TeqOk K}.
Variables HS DS : store K.
Variable TR : tree_impl K.
Variable HL : store_law HS.
Variable DL : store_law DS.
Variable TL : tree_law TR.
Notation run := (run re_w KSymbol HS DS TR).
Implicit Type h : list (adding K).

Lemma later_words (R : Prop) h : NoDup (map tag_of h) ->
  (forall t1 b1 base1 t2 b2 base2, built_on h t1 t2 -> In (t1, b1, base1) h -> In (t2, b2, base2) h ->
     inside re_w KSymbol R b1 b2 /\ exists t, texts (CBytes b2) = Some t) ->
  forall t1 t2, later h t1 t2 -> forall b1 base1 b2 base2, In (t1, b1, base1) h -> In (t2, b2, base2) h -> inside re_w KSymbol R b1 b2.
Proof.
  intros N G. induction 1 as [t1 t2 H|t1 t2 t3 H L IH]; intros b1 base1 b3 base3 H1 H3.
  - now apply (G t1 b1 base1 t2 b3 base3).
  - destruct (built_on_In h t1 t2 H) as [_ [b2 H2]]. destruct (G t1 b1 base1 t2 b2 (Some t1) H H1 H2) as [I T].
    apply (inside_trans R R R b1 b2 b3 T); auto. eapply IH; eauto.
Qed.

Theorem grow_words_stored n h : fresh KSymbol h -> growing_by_words re_w h ->
  (forall t b base, In (t, b, base) h -> (Z.of_nat (length b) <= n)%Z) ->
  forall t b base, In (t, b, base) h -> ~ is_head h t ->
  exists d, s_get DS (diffs (run v_empty h)) t = Ok d /\ length d <= 1 + 2 * width n.
Proof.
  intros F G B t b base Hin Hh. assert (Hkl : KSymbol <> KLine) by discriminate.
  destruct (stored_from re_w KSymbol HS DS TR HL DL TL h Hkl F t b base Hin Hh)
    as (q & bq & baseq & items & d & L & Hq & Sq & Sb & Hm & Hs & Hg).
  exists d. split; [exact Hg|].
  assert (I : inside re_w KSymbol False b bq).
  { refine (later_words False h (proj1 F) _ t q L b base bq baseq Hin Hq).
    intros t1 b1 base1 t2 b2 base2 H H1 H2. destruct (G _ _ _ _ _ _ H H1 H2) as (p & s & r & Fs & -> & -> & N1 & N2).
    split; [|now apply texts_encoded]. intros t1' t2' T1 T2 Hn. destruct (words_inside p s r Fs N1 N2 t1' t2' T1 T2 Hn) as (tp & tq & X & _).
    exists tp, tq. split; [exact X|contradiction]. }
  pose proof (B _ _ _ Hq) as Lq.
  destruct (patch_inside re_w KSymbol False b bq items Hkl Sb Sq I Hm) as [->|(i & j & -> & Lj & Lij & _)].
  - injection Hs as <-. cbn; lia.
  - apply (run_room n i j d); auto; lia.
Qed.
Theorem append_words_stored h : fresh KSymbol h -> appending_words re_w h ->
  forall t b base, In (t, b, base) h -> ~ is_head h t ->
  exists d, s_get DS (diffs (run v_empty h)) t = Ok d /\ length d <= 2 + width (Z.of_nat (length b)).
Proof.
  intros F G t b base Hin Hh. assert (Hkl : KSymbol <> KLine) by discriminate.
  destruct (stored_from re_w KSymbol HS DS TR HL DL TL h Hkl F t b base Hin Hh)
    as (q & bq & baseq & items & d & L & Hq & Sq & Sb & Hm & Hs & Hg).
  exists d. split; [exact Hg|].
  assert (I : inside re_w KSymbol True b bq).
  { refine (later_words True h (proj1 F) _ t q L b base bq baseq Hin Hq).
    intros t1 b1 base1 t2 b2 base2 H H1 H2. destruct (G _ _ _ _ _ _ H H1 H2) as (s & r & Fs & -> & -> & N).
    split; [|now apply texts_encoded]. intros t1' t2' T1 T2 Hn.
    destruct (words_inside [] s r Fs ltac:(intros [|? ?] ? ? ? X; discriminate X) N t1' t2' T1 T2 Hn) as (tp & tq & X & Y).
    exists tp, tq. split; [exact X|auto]. }
  destruct (patch_inside re_w KSymbol True b bq items Hkl Sb Sq I Hm) as [->|(i & j & -> & Lj & Lij & Hf)].
  - injection Hs as <-. cbn; lia.
  - destruct (Hf Logic.I) as [-> Lb]. apply (front_room _ j d); [lia|exact Hs].
Qed.
End Hist.

Section Both.
Context {K : Type} {E : Teq K} {O : TeqOk K}.
Notation D := (dict_store K).
Notation C := (db_store K).
Notation M := (memory_tree K).
Notation T := (db_tree K).
Implicit Type h : list (adding K).
Theorem grow_words_memory n h : fresh KSymbol h -> growing_by_words re_w h ->
  (forall t b base, In (t, b, base) h -> (Z.of_nat (length b) <= n)%Z) ->
  forall t b base, In (t, b, base) h -> ~ is_head h t ->
  exists d, dget (diffs (run re_w KSymbol D D M v_empty h)) t = Some d /\ length d <= 1 + 2 * width n.
Proof.
  intros F G B t b base Hin Hh.
  destruct (grow_words_stored D D M dict_law dict_law memory_law n h F G B t b base Hin Hh) as (d & H1 & H2).
  exists d. split; [now apply found|exact H2].
Qed.
Theorem append_words_memory h : fresh KSymbol h -> appending_words re_w h ->
  forall t b base, In (t, b, base) h -> ~ is_head h t ->
  exists d, dget (diffs (run re_w KSymbol D D M v_empty h)) t = Some d /\ length d <= 2 + width (Z.of_nat (length b)).
Proof.
  intros F G t b base Hin Hh.
  destruct (append_words_stored D D M dict_law dict_law memory_law h F G t b base Hin Hh) as (d & H1 & H2).
  exists d. split; [now apply found|exact H2].
Qed.
Theorem grow_words_db place1 place2 n h : fresh KSymbol h -> growing_by_words re_w h ->
  (forall t b base, In (t, b, base) h -> (Z.of_nat (length b) <= n)%Z) ->
  forall t b base, In (t, b, base) h -> ~ is_head h t ->
  exists d, s_get (C place2) (diffs (run re_w KSymbol (C place1) (C place2) T v_empty h)) t = Ok d /\ length d <= 1 + 2 * width n.
Proof. exact (grow_words_stored _ _ T (db_store_law place1) (db_store_law place2) db_law n h). Qed.
Theorem append_words_db place1 place2 h : fresh KSymbol h -> appending_words re_w h ->
  forall t b base, In (t, b, base) h -> ~ is_head h t ->
  exists d, s_get (C place2) (diffs (run re_w KSymbol (C place1) (C place2) T v_empty h)) t = Ok d /\
    length d <= 2 + width (Z.of_nat (length b)).
Proof. exact (append_words_stored _ _ T (db_store_law place1) (db_store_law place2) db_law h). Qed.
End Both.
End Words.
