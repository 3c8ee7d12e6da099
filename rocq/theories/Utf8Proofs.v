(** Facts about UTF-8 and about the ways of cutting a text into tokens. *)
From Coq Require Import ZArith Lia.
From Verif Require Import Base Tokenizers SpecTokenizers.
Local Open Scope Z_scope.

Ltac bz :=
  repeat match goal with
  | H : (_ && _)%bool = true |- _ => apply Bool.andb_true_iff in H; destruct H
  | H : (_ && _)%bool = false |- _ => apply Bool.andb_false_iff in H
  | H : (_ || _)%bool = true |- _ => apply Bool.orb_true_iff in H
  | H : (_ || _)%bool = false |- _ => apply Bool.orb_false_iff in H; destruct H
  | H : negb _ = true |- _ => apply Bool.negb_true_iff in H
  | H : negb _ = false |- _ => apply Bool.negb_false_iff in H
  | H : (_ <=? _) = true |- _ => apply Z.leb_le in H
  | H : (_ <=? _) = false |- _ => apply Z.leb_gt in H
  | H : (_ <? _) = true |- _ => apply Z.ltb_lt in H
  | H : (_ <? _) = false |- _ => apply Z.ltb_ge in H
  | H : (_ =? _) = true |- _ => apply Z.eqb_eq in H
  | H : (_ =? _) = false |- _ => apply Z.eqb_neq in H
  end.

Lemma utf8_char_cases c : scalar_value c ->
  (0 <= c < 128 /\ utf8_char c = [c]) \/
  (exists a b, 2 <= a < 32 /\ 0 <= b < 64 /\ c = a * 64 + b /\ utf8_char c = [192 + a; 128 + b]) \/
  (exists a b d, 0 <= a < 16 /\ 0 <= b < 64 /\ 0 <= d < 64 /\ c = a * 4096 + b * 64 + d /\
     (a = 0 -> 32 <= b) /\ (a = 13 -> b < 32) /\
     utf8_char c = [224 + a; 128 + b; 128 + d]) \/
  (exists a b d e, 0 <= a <= 4 /\ 0 <= b < 64 /\ 0 <= d < 64 /\ 0 <= e < 64 /\
     c = a * 262144 + b * 4096 + d * 64 + e /\ (a = 0 -> 16 <= b) /\ (a = 4 -> b < 16) /\
     utf8_char c = [240 + a; 128 + b; 128 + d; 128 + e]).
Proof.
  intros [H1 H2]; unfold utf8_char.
  destruct (c <? 128) eqn:L1; [left; bz; split; [lia|reflexivity]|].
  destruct (c <? 2048) eqn:L2.
  { right; left; exists (c / 64), (c mod 64); bz.
    repeat split; try reflexivity; Z.to_euclidean_division_equations; lia. }
  destruct (c <? 65536) eqn:L3.
  { right; right; left; exists (c / 4096), ((c / 64) mod 64), (c mod 64); bz.
    assert (E : c = c / 4096 * 4096 + (c / 64) mod 64 * 64 + c mod 64).
    { Z.to_euclidean_division_equations; lia. }
    assert (0 <= c / 4096 < 16) by (Z.to_euclidean_division_equations; lia).
    assert (0 <= (c / 64) mod 64 < 64) by (Z.to_euclidean_division_equations; lia).
    assert (0 <= c mod 64 < 64) by (Z.to_euclidean_division_equations; lia).
    do 4 (split; [assumption || lia|]).
    repeat split; try reflexivity; try lia. }
  right; right; right; exists (c / 262144), ((c / 4096) mod 64), ((c / 64) mod 64), (c mod 64); bz.
  assert (E : c = c / 262144 * 262144 + (c / 4096) mod 64 * 4096 + (c / 64) mod 64 * 64 + c mod 64).
  { Z.to_euclidean_division_equations; lia. }
  assert (0 <= c / 262144 <= 4) by (Z.to_euclidean_division_equations; lia).
  assert (0 <= (c / 4096) mod 64 < 64) by (Z.to_euclidean_division_equations; lia).
  assert (0 <= (c / 64) mod 64 < 64) by (Z.to_euclidean_division_equations; lia).
  assert (0 <= c mod 64 < 64) by (Z.to_euclidean_division_equations; lia).
  do 5 (split; [assumption || lia|]).
  repeat split; try reflexivity; try lia.
Qed.

Ltac decb :=
  repeat match goal with
  | |- context [?a <=? ?b] =>
      first [ rewrite (proj2 (Z.leb_le a b)) by lia | rewrite (proj2 (Z.leb_gt a b)) by lia ]
  | |- context [?a <? ?b] =>
      first [ rewrite (proj2 (Z.ltb_lt a b)) by lia | rewrite (proj2 (Z.ltb_ge a b)) by lia ]
  | |- context [?a =? ?b] =>
      first [ rewrite (proj2 (Z.eqb_eq a b)) by lia | rewrite (proj2 (Z.eqb_neq a b)) by lia ]
  end.

Lemma utf8_decode_char c r : scalar_value c ->
  utf8_decode (utf8_char c ++ r) = option_map (cons c) (utf8_decode r).
Proof.
  intros Hc; destruct (utf8_char_cases c Hc)
    as [[H ->] | [[a [b [Ha [Hb [-> ->]]]]] |
        [[a [b [d [Ha [Hb [Hd [-> [H0 [H13 ->]]]]]]]]] |
         [a [b [d [e [Ha [Hb [Hd [He [-> [H0 [H4 ->]]]]]]]]]]]]]]; cbn [app utf8_decode]; unfold is_cont.
  - decb; reflexivity.
  - decb; cbn [andb negb orb]; do 2 f_equal; lia.
  - assert (Hx : (negb (224 + a =? 224) || (160 <=? 128 + b)) = true).
    { destruct (Z.eq_dec a 0); decb; rewrite ?orb_true_r; reflexivity. }
    assert (Hy : (negb (224 + a =? 237) || (128 + b <=? 159)) = true).
    { destruct (Z.eq_dec a 13); decb; rewrite ?orb_true_r; reflexivity. }
    rewrite Hx, Hy; decb; cbn [andb]; do 2 f_equal; lia.
  - assert (Hx : (negb (240 + a =? 240) || (144 <=? 128 + b)) = true).
    { destruct (Z.eq_dec a 0); decb; rewrite ?orb_true_r; reflexivity. }
    assert (Hy : (negb (240 + a =? 244) || (128 + b <=? 143)) = true).
    { destruct (Z.eq_dec a 4); decb; rewrite ?orb_true_r; reflexivity. }
    rewrite Hx, Hy; decb; cbn [andb]; do 2 f_equal; lia.
Qed.

Lemma utf8_decode_encode s : Forall scalar_value s ->
  utf8_decode (flat_map utf8_char s) = Some s.
Proof.
  induction 1 as [|c s Hc _ IH]; cbn [flat_map]; [reflexivity|].
  now rewrite utf8_decode_char, IH by assumption.
Qed.

Lemma utf8_decode_sound : forall n s l, (length s <= n)%nat -> utf8_decode s = Some l ->
  Forall scalar_value l /\ s = flat_map utf8_char l.
Proof.
  induction n as [|n IH]; intros s l Hn H.
  { destruct s; [|cbn in Hn; lia]. cbn in H; injection H as <-; split; [constructor|reflexivity]. }
  destruct s as [|b0 r0]; cbn [utf8_decode] in H.
  { injection H as <-; split; [constructor|reflexivity]. }
  cbn [length] in Hn.
  assert (Step : forall c r, (length r <= n)%nat -> scalar_value c -> 
            option_map (cons c) (utf8_decode r) = Some l ->
            Forall scalar_value l /\ utf8_char c ++ r = flat_map utf8_char l).
  { intros c r Hr Hc Hl; destruct (utf8_decode r) as [l'|] eqn:Hl'; [|discriminate].
    cbn in Hl; injection Hl as <-.
    destruct (IH r l' Hr Hl') as [F Er]; split; [now constructor|].
    cbn [flat_map]; now rewrite <- Er. }
  destruct ((0 <=? b0) && (b0 <? 128)) eqn:C0.
  { bz. apply Step in H; [|lia|split; lia]. 
    replace (b0 :: r0) with (utf8_char b0 ++ r0); [exact H|].
    unfold utf8_char; now rewrite (proj2 (Z.ltb_lt _ _)) by lia. }
  destruct r0 as [|b1 r1]; [discriminate|].
  destruct ((194 <=? b0) && (b0 <=? 223)) eqn:C1.
  { unfold is_cont in H; destruct ((128 <=? b1) && (b1 <=? 191)) eqn:C; [|discriminate].
    bz. cbn [length] in Hn.
    apply Step in H; [|lia|split; lia].
    replace (b0 :: b1 :: r1) with (utf8_char ((b0 - 192) * 64 + (b1 - 128)) ++ r1); [exact H|].
    unfold utf8_char; decb. cbn [app]. f_equal; [|f_equal];
      Z.to_euclidean_division_equations; lia. }
  destruct r1 as [|b2 r2]; [discriminate|].
  destruct ((224 <=? b0) && (b0 <=? 239)) eqn:C2.
  { unfold is_cont in H.
    match type of H with (if ?c then _ else _) = _ => destruct c eqn:C; [|discriminate] end.
    bz. cbn [length] in Hn.
    assert (b0 = 224 -> 160 <= b1) by (intros; repeat match goal with H : _ = true \/ _ = true |- _ => destruct H end; bz; lia).
    assert (b0 = 237 -> b1 <= 159) by (intros; repeat match goal with H : _ = true \/ _ = true |- _ => destruct H end; bz; lia).
    apply Step in H; [|lia|split; lia].
    match type of H with _ /\ ?x = _ => replace (b0 :: b1 :: b2 :: r2) with x; [exact H|] end.
    unfold utf8_char; decb; cbn [app]. f_equal; [|f_equal; [|f_equal]];
      Z.to_euclidean_division_equations; lia. }
  destruct r2 as [|b3 r3]; [discriminate|].
  unfold is_cont in H.
  match type of H with (if ?c then _ else _) = _ => destruct c eqn:C; [|discriminate] end.
  bz. cbn [length] in Hn.
  assert (b0 = 240 -> 144 <= b1) by (intros; repeat match goal with H : _ = true \/ _ = true |- _ => destruct H end; bz; lia).
  assert (b0 = 244 -> b1 <= 143) by (intros; repeat match goal with H : _ = true \/ _ = true |- _ => destruct H end; bz; lia).
  apply Step in H; [|lia|split; lia].
  match type of H with _ /\ ?x = _ => replace (b0 :: b1 :: b2 :: b3 :: r3) with x; [exact H|] end.
  unfold utf8_char; decb; cbn [app]. f_equal; [|f_equal; [|f_equal; [|f_equal]]];
    Z.to_euclidean_division_equations; lia.
Qed.

Lemma utf8_decode_ok s l : utf8_decode s = Some l ->
  Forall scalar_value l /\ s = flat_map utf8_char l.
Proof. apply (utf8_decode_sound (length s)); lia. Qed.

Lemma is_utf8_decode b : is_utf8 b <-> exists l, utf8_decode b = Some l.
Proof.
  split.
  - intros [s [F ->]]; exists s; now apply utf8_decode_encode.
  - intros [l H]; exists l; now apply utf8_decode_ok.
Qed.

Lemma utf8_char_inj c c' : scalar_value c -> scalar_value c' -> utf8_char c = utf8_char c' -> c = c'.
Proof.
  intros H H' E.
  pose proof (utf8_decode_char c [] H) as D; pose proof (utf8_decode_char c' [] H') as D'.
  rewrite E, D' in D; cbn in D; now injection D.
Qed.

(** * Lines *)
Lemma split_nl_nonnil s : split_nl s <> [].
Proof. destruct s as [|c s]; cbn; [discriminate|destruct (c =? 10); [discriminate|destruct (split_nl s); discriminate]]. Qed.

Lemma join_split_nl s : join_with [10] (split_nl s) = s.
Proof.
  induction s as [|c s IH]; cbn [split_nl]; [reflexivity|].
  destruct (c =? 10) eqn:C.
  - bz; subst. pose proof (split_nl_nonnil s) as N.
    destruct (split_nl s) as [|h t] eqn:S; [now destruct N|].
    change (join_with [10] ([] :: h :: t)) with (10 :: join_with [10] (h :: t)); now rewrite IH.
  - destruct (split_nl s) as [|h t] eqn:S; [now apply split_nl_nonnil in S|].
    rewrite <- IH; destruct t; reflexivity.
Qed.

Lemma split_nl_no_nl s : Forall (fun l => ~ In 10 l) (split_nl s).
Proof.
  induction s as [|c s IH]; cbn [split_nl]; [constructor; [easy|constructor]|].
  destruct (c =? 10) eqn:C; [constructor; [easy|assumption]|].
  bz; destruct (split_nl s) as [|h t]; [constructor; [|constructor]; cbn; intuition|].
  inversion IH; subst; constructor; [cbn; intuition|assumption].
Qed.

Lemma lines_of_concat s : concat (lines_of s) = s.
Proof.
  unfold lines_of; rewrite concat_app; cbn [concat]; rewrite app_nil_r.
  rewrite <- (join_split_nl s) at 3.
  pose proof (split_nl_nonnil s) as N.
  induction (split_nl s) as [|h t IH]; [now destruct N|].
  destruct t as [|h' t]; [reflexivity|].
  cbn [removelast map concat last join_with]. rewrite <- !app_assoc; f_equal.
  cbn [app]; f_equal. cbn [removelast map concat last join_with] in IH; apply IH; discriminate.
Qed.

(** * Symbols *)
Section Sym.
Variable re_w : Z -> bool.
Notation is_word := (is_word re_w).

Lemma span_word_ok s : s = fst (span_word re_w s) ++ snd (span_word re_w s) /\
  Forall (fun c => is_word c = true) (fst (span_word re_w s)) /\
  (forall c r, snd (span_word re_w s) = c :: r -> is_word c = false).
Proof.
  induction s as [|c s IH]; cbn [span_word]; [repeat split; [constructor|discriminate]|].
  destruct (is_word c) eqn:W.
  - destruct (span_word re_w s) as [w t]; cbn in *; destruct IH as [-> [F N]].
    repeat split; [constructor; assumption|exact N].
  - cbn; repeat split; [constructor|]. intros ? ? E; now injection E as <- <-.
Qed.

Lemma span_word_app w t : Forall (fun c => is_word c = true) w ->
  (forall c r, t = c :: r -> is_word c = false) -> span_word re_w (w ++ t) = (w, t).
Proof.
  induction 1 as [|c w Hc _ IH]; intros N; cbn [app span_word].
  - destruct t as [|c t]; [reflexivity|]. cbn [span_word]; now rewrite (N _ _ eq_refl).
  - rewrite Hc, IH by exact N; reflexivity.
Qed.

(** a token is a run of word characters or one other character, and two runs
    are never next to each other *)
Definition tok_word (t : list Z) : Prop := t <> [] /\ Forall (fun c => is_word c = true) t.
Definition tok_single (t : list Z) : Prop := exists c, t = [c] /\ is_word c = false.
Inductive sym_seq : list (list Z) -> Prop :=
| sym_nil : sym_seq []
| sym_single t l : tok_single t -> sym_seq l -> sym_seq (t :: l)
| sym_word t l : tok_word t -> sym_seq l -> (forall t' l', l = t' :: l' -> tok_single t') ->
    sym_seq (t :: l).

Lemma sym_seq_tail t l : sym_seq (t :: l) -> sym_seq l.
Proof. inversion 1; assumption. Qed.
Lemma sym_seq_prefix a b : sym_seq (a ++ b) -> sym_seq a.
Proof.
  induction a as [|t a IH]; cbn; intros H; [constructor|].
  inversion H; subst; [apply sym_single; auto|].
  apply sym_word; auto. intros t' l' ->; eapply H4; reflexivity.
Qed.
Lemma sym_seq_suffix a b : sym_seq (a ++ b) -> sym_seq b.
Proof. induction a as [|t a IH]; cbn; intros H; [exact H|]. now apply IH, (sym_seq_tail t). Qed.

Lemma symbols_loop_ok : forall n s, (length s <= n)%nat ->
  concat (symbols_loop re_w n s) = s /\ sym_seq (symbols_loop re_w n s) /\
  (forall c r, s = c :: r -> is_word c = false -> exists l, symbols_loop re_w n s = [c] :: l).
Proof.
  induction n as [|n IH]; intros s Hn.
  { destruct s; [|cbn in Hn; lia]; repeat split; [constructor|discriminate]. }
  cbn [symbols_loop]; destruct s as [|c s]; [repeat split; [constructor|discriminate]|].
  cbn [length] in Hn.
  destruct (is_word c) eqn:W.
  - destruct (span_word_ok s) as [E [F N]].
    destruct (span_word re_w s) as [w t]; cbn in E, F, N.
    assert (Ht : (length t <= n)%nat) by (subst s; rewrite app_length in Hn; lia).
    destruct (IH t Ht) as [C [S L]].
    split; [|split].
    + cbn [concat]; rewrite C; cbn [app]; now rewrite E.
    + apply sym_word; [split; [discriminate|constructor; assumption]|exact S|].
      intros t' l' Hl. destruct t as [|d t].
      { destruct n; cbn in Hl; discriminate. }
      destruct (L d t eq_refl (N _ _ eq_refl)) as [l2 Hl2].
      rewrite Hl2 in Hl; injection Hl as <- <-. exists d; split; [reflexivity|eapply N; reflexivity].
    + intros c' r Hc Hw; injection Hc as <- <-; congruence.
  - assert (Ht : (length s <= n)%nat) by lia.
    destruct (IH s Ht) as [C [S L]].
    split; [|split].
    + cbn [concat app]; now rewrite C.
    + apply sym_single; [exists c; auto|exact S].
    + intros c' r Hc _; injection Hc as <- <-; eauto.
Qed.

Lemma sym_seq_loop l : sym_seq l -> forall n, (length (concat l) <= n)%nat ->
  symbols_loop re_w n (concat l) = l.
Proof.
  induction 1 as [|t l [c [-> W]] Hl IH|t l [N F] Hl IH Hn']; intros n Hn.
  - destruct n; reflexivity.
  - cbn [concat app length] in *. destruct n; [lia|]. cbn [symbols_loop].
    rewrite W, IH by lia; reflexivity.
  - destruct t as [|c t]; [now destruct N|].
    cbn [concat app length] in *. destruct n; [lia|]. cbn [symbols_loop].
    inversion F; subst.
    match goal with H : is_word c = true |- _ => rewrite H end.
    rewrite span_word_app; [|assumption|].
    + rewrite IH; [reflexivity|]. rewrite app_length in Hn; lia.
    + intros d r Hd. destruct l as [|t' l']; [discriminate|].
      destruct (Hn' t' l' eq_refl) as [d' [-> W']]. cbn in Hd; injection Hd as <- _; exact W'.
Qed.

Lemma symbols_of_concat s : concat (symbols_of re_w s) = s.
Proof. now apply symbols_loop_ok. Qed.
Lemma symbols_of_seq s : sym_seq (symbols_of re_w s).
Proof. now apply symbols_loop_ok. Qed.
Lemma symbols_of_unique l : sym_seq l -> symbols_of re_w (concat l) = l.
Proof. intros H; now apply sym_seq_loop. Qed.
End Sym.
