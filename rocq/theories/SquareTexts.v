(** Proofs for C132: the texts gaspra-merge merges. *)
From Coq Require Import ZArith.
From Verif Require Import Base Changesets SpecDiff Merge SpecMerge Tokenizers SpecTokenizers Markup SpecMarkup
  SpecTokens TokensProofs SpecEdits EditsProofs SpecSquare SquareProofs.
Local Open Scope Z_scope.

Lemma merge_of_units re_w o p c t tp tc tt m : real_text p -> real_text c -> real_text t ->
  units re_w (tokenizer_of o) (CStr p) tp -> units re_w (tokenizer_of o) (CStr c) tc -> units re_w (tokenizer_of o) (CStr t) tt ->
  merge_token_sequence KTuple tp tc tt = Ok [DText m] -> merge_result re_w o p c t = Ok [TText (CStr (concat m))].
Proof.
  intros Rp Rc Rt Up Uc Ut Hm.
  destruct (merge_units re_w o p c t Rp Rc Rt) as (M & tp' & tc' & tt' & E & Vp & Vc & Vt & HM & _).
  rewrite (units_unique re_w _ _ _ _ Vp Up), (units_unique re_w _ _ _ _ Vc Uc), (units_unique re_w _ _ _ _ Vt Ut), Hm in HM.
  injection HM as <-. exact E.
Qed.
Theorem square_texts re_w o n f s b l : real_text n -> real_text f -> real_text s -> real_text b -> separate l ->
  units re_w (tokenizer_of o) (CStr n) (neither l) -> units re_w (tokenizer_of o) (CStr f) (by_first l) ->
  units re_w (tokenizer_of o) (CStr s) (by_second l) -> units re_w (tokenizer_of o) (CStr b) (by_both l) ->
  merge_result re_w o n f s = Ok [TText (CStr b)] /\ merge_result re_w o n s f = Ok [TText (CStr b)] /\
  merge_result re_w o f b n = Ok [TText (CStr s)] /\ merge_result re_w o f n b = Ok [TText (CStr s)] /\
  merge_result re_w o s b n = Ok [TText (CStr f)] /\ merge_result re_w o s n b = Ok [TText (CStr f)] /\
  merge_result re_w o b f s = Ok [TText (CStr n)] /\ merge_result re_w o b s f = Ok [TText (CStr n)].
Proof.
  intros Rn Rf Rs Rb S Un Uf Us Ub.
  pose proof (square KTuple l S) as (H1 & H2 & H3 & H4 & H5 & H6 & H7 & H8).
  assert (G : forall p c t m tp tc tt tm, real_text p -> real_text c -> real_text t ->
    units re_w (tokenizer_of o) (CStr p) tp -> units re_w (tokenizer_of o) (CStr c) tc -> units re_w (tokenizer_of o) (CStr t) tt ->
    units re_w (tokenizer_of o) (CStr m) tm -> merge_token_sequence KTuple tp tc tt = Ok [DText tm] ->
    merge_result re_w o p c t = Ok [TText (CStr m)]).
  { intros p c t m tp tc tt tm Rp Rc Rt Up Uc Ut [Um _] H. cbn [raw] in Um. rewrite <- Um. now apply (merge_of_units re_w o p c t tp tc tt). }
  repeat split.
  - now apply (G n f s b (neither l) (by_first l) (by_second l) (by_both l)).
  - now apply (G n s f b (neither l) (by_second l) (by_first l) (by_both l)).
  - now apply (G f b n s (by_first l) (by_both l) (neither l) (by_second l)).
  - now apply (G f n b s (by_first l) (neither l) (by_both l) (by_second l)).
  - now apply (G s b n f (by_second l) (by_both l) (neither l) (by_first l)).
  - now apply (G s n b f (by_second l) (neither l) (by_both l) (by_first l)).
  - now apply (G b f s n (by_both l) (by_first l) (by_second l) (neither l)).
  - now apply (G b s f n (by_both l) (by_second l) (by_first l) (neither l)).
Qed.
