(** What the tokenizers raise (C46). *)
From Coq Require Import ZArith Lia.
From Verif Require Import Base Changesets Tokenizers SpecTokenizers TokenizersProofs.
Local Open Scope Z_scope.

Section Raise.
Variable re_w : Z -> bool.
Lemma after_type k calls : forall st s, st_ok st -> Forall real_contents calls -> source_type st = Some s ->
  source_type (after re_w k st calls) = Some s.
Proof.
  intros st s Hst F Hs. destruct (after_ok re_w k calls st Hst F) as [_ (_ & X & _)]. rewrite X; congruence.
Qed.
Lemma first_type k c0 rest : Forall real_contents (c0 :: rest) ->
  source_type (after re_w k new_tokenizer (c0 :: rest)) = Some (kind_of c0).
Proof.
  intros F. inversion F; subst. cbn [after fold_left].
  destruct (encode_step re_w k new_tokenizer c0 new_ok ltac:(assumption)) as (O & _ & T & M).
  apply after_type; auto. destruct T as [T|[_ T]]; [|exact T].
  destruct (snd (encode re_w k new_tokenizer c0)) as [toks|e] eqn:Q; [now destruct M as (_ & M & _)|].
  unfold encode in *. cbn [source_type new_tokenizer] in *. destruct M as [[_ M]|(_ & _ & Ht)]; [destruct M; now left|].
  destruct k, c0; cbn in *; try discriminate; destruct (utf8_decode b); try discriminate; reflexivity.
Qed.
Theorem encode_outcome k before c : Forall real_contents before -> real_contents c ->
  let st := after re_w k new_tokenizer before in
  (forall c0 rest, before = c0 :: rest -> kind_of c0 <> kind_of c -> encode re_w k st c = (st, Err RuntimeError)) /\
  ((forall c0 rest, before = c0 :: rest -> kind_of c0 = kind_of c) ->
   (encodable k c -> exists st' toks, encode re_w k st c = (st', Ok toks)) /\
   (~ encodable k c -> exists st', encode re_w k st c = (st', Err UnicodeDecodeError))).
Proof.
  intros F Rc st. destruct (after_ok re_w k before _ new_ok F) as [O _]. fold st in O. split.
  - intros c0 rest -> Hd. unfold encode. fold st. unfold st at 1. rewrite first_type by exact F.
    destruct (skind_eqb (kind_of c0) (kind_of c)) eqn:Q; [apply kind_eqb_eq in Q; congruence|reflexivity].
  - intros Hs. assert (Hf : fits st c).
    { unfold st. destruct before as [|c0 rest]; [now left|right]. rewrite first_type by exact F. now rewrite (Hs c0 rest). }
    destruct (encode_step re_w k st c O Rc) as (_ & _ & _ & M). destruct (encode re_w k st c) as [st' [toks|e]]; cbn [snd fst] in M.
    + destruct M as (_ & _ & _ & ts & Ht & _). split; [eauto|]. intros N. destruct N. eapply encodable_texts; eauto.
    + destruct M as [[_ M]|(-> & _ & Ht)]; [contradiction|]. split; [|eauto].
      intros H. destruct (texts_encodable re_w k c H) as [ts H2]. congruence.
Qed.

(** a tokenizer that has encoded nothing *)
Theorem fresh_decode toks :
  (Forall (fun c => 0 <= c <= 1114111) toks -> decode KChar new_tokenizer toks = Ok (CStr toks)) /\
  decode KLine new_tokenizer toks = Err AttributeError /\ decode KSymbol new_tokenizer toks = Err AttributeError.
Proof.
  split; [|split; reflexivity]. intros F. unfold decode. change (src new_tokenizer) with SStr. cbn match.
  rewrite (map_res_ok chr toks (map (fun c => [c]) toks)).
  - cbn [bind mk]. do 2 f_equal. clear F. induction toks as [|c l IH]; [reflexivity|]. cbn [map concat app]. now rewrite IH.
  - induction F as [|c l Hc F IH]; cbn [map]; constructor; [|exact IH]. unfold chr, is_chr.
    destruct (Z.leb_spec 0 c), (Z.leb_spec c 1114111); try lia; reflexivity.
Qed.
End Raise.
