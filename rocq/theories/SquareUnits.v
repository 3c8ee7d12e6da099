(** The text with the edits of both, split into units (C132). *)
From Coq Require Import ZArith.
From Verif Require Import Base Changesets SpecDiff Merge SpecMerge Tokenizers Markup SpecMarkup SpecTokens SpecEdits
  SpecSquare SquareProofs SquareTexts SpecOrder EditsOrderTexts.

Lemma settled_all re_w o p bs : settled re_w o p bs.
Proof.
  destruct (o_words o) eqn:W; [now apply settled_words|]. destruct (o_lines o) eqn:L; [now apply settled_lines|now apply settled_characters].
Qed.
Theorem square_files re_w o n f s l : real_text n -> real_text f -> real_text s -> separate l ->
  units re_w (tokenizer_of o) (CStr n) (neither l) -> units re_w (tokenizer_of o) (CStr f) (by_first l) ->
  units re_w (tokenizer_of o) (CStr s) (by_second l) ->
  let b := concat (by_both l) in
  merge_result re_w o n f s = Ok [TText (CStr b)] /\ merge_result re_w o n s f = Ok [TText (CStr b)] /\
  merge_result re_w o f b n = Ok [TText (CStr s)] /\ merge_result re_w o f n b = Ok [TText (CStr s)] /\
  merge_result re_w o s b n = Ok [TText (CStr f)] /\ merge_result re_w o s n b = Ok [TText (CStr f)] /\
  merge_result re_w o b f s = Ok [TText (CStr n)] /\ merge_result re_w o b s f = Ok [TText (CStr n)].
Proof.
  intros Rn Rf Rs S Un Uf Us b.
  assert (E1 : edited re_w o n f (script_of true false l)).
  { split; [exact Rf|]. rewrite script_before_of, script_after_of. split; [exact Un|]. split; [exact Uf|now apply script_distinct]. }
  assert (E2 : edited re_w o n s (script_of false true l)).
  { split; [exact Rs|]. rewrite script_before_of, script_after_of. split; [exact Un|]. split; [exact Us|now apply script_distinct]. }
  assert (M : forall e, In e (edits 0 (script_of true true l)) -> edit_of re_w o n [f; s] e).
  { intros e I. unfold script_of in I. rewrite glued_edits in I. apply edits_both in I as [I|I].
    - exists f, (script_of true false l). split; [now left|]. split; [exact E1|]. unfold script_of. now rewrite glued_edits.
    - exists s, (script_of false true l). split; [right; now left|]. split; [exact E2|]. unfold script_of. now rewrite glued_edits. }
  pose proof (script_distinct true true l S) as D.
  assert (U : units re_w (tokenizer_of o) (CStr n) (diff_before (script_of true true l))) by now rewrite script_before_of.
  pose proof (made_real re_w o n Rn [f; s] _ D U M) as R. pose proof (settled_all re_w o n [f; s] _ D U M) as V.
  rewrite script_after_of in R, V. now apply (square_texts re_w o n f s b l).
Qed.
