(** Proofs for C77 and C78: edits of texts, by the tokens of a tokenizer. *)
From Coq Require Import ZArith.
From Verif Require Import Base Changesets SpecDiff Merge SpecMerge Tokenizers SpecTokenizers Markup SpecMarkup
  SpecTokens TokensProofs SpecEdits EditsProofs EditsConflicts.
Local Open Scope Z_scope.

Theorem diff_of_edited_text re_w k before o m s :
  Forall real_contents before -> Forall (fun x => kind_of x = kind_of o) before ->
  kind_of m = kind_of o -> encodable k o -> encodable k m ->
  units re_w k o (diff_before s) -> units re_w k m (diff_after s) -> distinct_edits s ->
  exists st', diff re_w k (after re_w k new_tokenizer before) o m = (st', Ok (map (pieces (kind_of o)) s)).
Proof.
  intros F1 F2 K Eo Em Uo Um Ds.
  destruct (diff_units re_w k before o m F1 F2 K Eo Em) as (st' & D & tso & tsm & E & Vo & Vm & HD & _).
  rewrite (units_unique re_w k o _ _ Vo Uo), (units_unique re_w k m _ _ Vm Um), (diff_finds_edits s Ds) in HD.
  injection HD as <-. now exists st'.
Qed.
Theorem merge_of_edited_texts re_w o p c t s0 s1 : real_text p -> real_text c -> real_text t ->
  units re_w (tokenizer_of o) (CStr p) (diff_before s0) -> units re_w (tokenizer_of o) (CStr p) (diff_before s1) ->
  units re_w (tokenizer_of o) (CStr c) (diff_after s0) -> units re_w (tokenizer_of o) (CStr t) (diff_after s1) ->
  distinct_edits s0 -> distinct_edits s1 -> compatible (edits 0 s0) (edits 0 s1) ->
  merge_result re_w o p c t =
    Ok [TText (CStr (concat (union_text (diff_before s0) (edits 0 s0) (edits 0 s1))))].
Proof.
  intros Rp Rc Rt Up Up' Uc Ut D0 D1 C.
  destruct (merge_units re_w o p c t Rp Rc Rt) as (M & tp & tc & tt & E & Vp & Vc & Vt & HM & _).
  rewrite (units_unique re_w _ _ _ _ Vp Up), (units_unique re_w _ _ _ _ Vc Uc), (units_unique re_w _ _ _ _ Vt Ut) in HM.
  rewrite merge_of_edits in HM; [|exact D0|exact D1|exact (units_unique re_w _ _ _ _ Up Up')|exact C].
  injection HM as <-. exact E.
Qed.
Theorem edited_texts_conflict re_w o p c t s0 s1 r : real_text p -> real_text c -> real_text t ->
  units re_w (tokenizer_of o) (CStr p) (diff_before s0) -> units re_w (tokenizer_of o) (CStr p) (diff_before s1) ->
  units re_w (tokenizer_of o) (CStr c) (diff_after s0) -> units re_w (tokenizer_of o) (CStr t) (diff_after s1) ->
  distinct_edits s0 -> distinct_edits s1 -> merge_result re_w o p c t = Ok r ->
  ((forall a b, ~ In (TChange a b) r) <-> compatible (edits 0 s0) (edits 0 s1)).
Proof.
  intros Rp Rc Rt Up Up' Uc Ut D0 D1 HR.
  destruct (merge_units re_w o p c t Rp Rc Rt) as (M & tp & tc & tt & E & Vp & Vc & Vt & HM & _).
  rewrite (units_unique re_w _ _ _ _ Vp Up), (units_unique re_w _ _ _ _ Vc Uc), (units_unique re_w _ _ _ _ Vt Ut) in HM.
  rewrite HR in E. injection E as ->.
  rewrite <- (merge_conflict_iff _ s0 s1 M D0 D1 (units_unique re_w _ _ _ _ Up Up') HM).
  split; intros H a b I.
  - apply (H (mk SStr (concat a)) (mk SStr (concat b))). change (In (pieces SStr (DChange a b)) (map (pieces SStr) M)). now apply in_map.
  - apply in_map_iff in I as ([x|x y] & Hx & I); [discriminate|]. now apply (H x y).
Qed.
