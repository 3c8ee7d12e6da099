(** Proofs about line diffs of str or bytes: on str they are those of Lines.v, on bytes
    the common text is lost. *)
From Coq Require Import Lia.
From Verif Require Import Base Changesets SpecDiff Tokenizers SpecTokenizers TokenizersProofs TokenizersDiff DiffLaws
  Lines SpecLines LinesProofs LinesMore Markup SpecMarkup MarkupCli LinesKinds SpecLinesKinds.
Local Open Scope Z_scope.

(** ** str *)
Definition kit (i : litem) : kitem := match i with LStr s => KStr s | LChange a b => KChange (CStr a) (CStr b) end.
Definition kot (i : oitem) : kout := match i with OStr s => KText s | OChange a b => KLines (map kit a) (map kit b) end.
Definition kac (c : acc) : kacc := mkK (map kit (p_into c)) (map kit (p_from c)) (finishable c) (in_conflict c).
Definition kti (i : ditem Z) : titem := match i with DText s => TText (CStr s) | DChange a b => TChange (CStr a) (CStr b) end.

Lemma kac_add s c : add_frag_k s (kac c) = kac (add_frag s c).
Proof. unfold add_frag_k, add_frag, kac; cbn. now rewrite !map_app. Qed.
Lemma kac_conflict a b c : add_conflict_k (CStr a) (CStr b) (kac c) = kac (add_conflict a b c).
Proof. unfold add_conflict_k, add_conflict, kac; cbn. now rewrite !map_app. Qed.
Lemma kac_finish s c : finish_conflict_k s (kac c) = (map kot (fst (finish_conflict s c)), kac (snd (finish_conflict s c))).
Proof.
  unfold finish_conflict_k, finish_conflict, conditional_add_k, conditional_add. cbn [k_finishable kac].
  destruct (finishable c); cbn; [now destruct (nonempty s)|]. destruct (nonempty s); cbn; rewrite ?kac_add; unfold kac; cbn; rewrite ?map_app; reflexivity.
Qed.
Lemma kac_nonempty c : is_nonempty_k (kac c) = is_nonempty c.
Proof. unfold is_nonempty_k, is_nonempty, kac; cbn. now destruct (p_into c), (p_from c). Qed.
Lemma if_nonempty_kot s : if_nonempty_k s = map kot (if_nonempty s).
Proof. unfold if_nonempty_k, if_nonempty. now destruct (nonempty s). Qed.
Lemma kit_str i : kitem_str (kit i) = litem_str i. Proof. now destruct i. Qed.
Lemma kit_true i : kitem_true (kit i) = litem_true i. Proof. now destruct i. Qed.
Lemma strs_kit l : map_res kitem_str (map kit l) = map_res litem_str l.
Proof. induction l as [|i l IH]; [reflexivity|]. cbn [map map_res]. rewrite kit_str, IH. reflexivity. Qed.
Lemma kac_flush c : flush_k (kac c) = let* l := flush c in Ok (map kot l).
Proof.
  unfold flush_k, flush. cbn [k_conflict k_finishable kac]. destruct (in_conflict c).
  - rewrite kac_finish. reflexivity.
  - cbn [k_from kac]. destruct (p_from c) as [|i l]; [reflexivity|]. cbn [map]. rewrite kit_true. destruct (litem_true i); [|reflexivity].
    change (kit i :: map kit l) with (map kit (i :: l)). change [KStr [10]] with (map kit [LStr [10]]). rewrite <- map_app, strs_kit.
    destruct (map_res litem_str ((i :: l) ++ [LStr [10]])); reflexivity.
Qed.

Section WithSpace.
Variable space : Z -> bool.
Lemma kac_handle f c : handle_fragment_k space (kti f) (kac c) =
  (map kot (fst (handle_fragment space f c)), kac (snd (handle_fragment space f c))).
Proof.
  destruct f as [s|a b]; cbn [kti handle_fragment_k handle_fragment]; [|now rewrite kac_conflict].
  cbn [k_conflict kac k_finishable]. destruct (in_conflict c && isspace space s); [now rewrite kac_add|].
  rewrite kac_nonempty.
  assert (X : (if finishable c && is_nonempty c then finish_conflict_k [] (kac c) else ([], kac c)) =
    (map kot (fst (if finishable c && is_nonempty c then finish_conflict [] c else ([], c))),
     kac (snd (if finishable c && is_nonempty c then finish_conflict [] c else ([], c))))).
  { destruct (finishable c && is_nonempty c); [apply kac_finish|reflexivity]. }
  rewrite X. clear X. destruct (if finishable c && is_nonempty c then finish_conflict [] c else ([], c)) as [o1 c1]; cbn [fst snd].
  destruct (split_nl s) as [|first [|r1 rest]]; [reflexivity|cbn [fst snd]; now rewrite kac_add|].
  cbn [k_conflict kac]. destruct (in_conflict c1).
  - rewrite kac_finish. destruct (finish_conflict (first ++ [10]) c1) as [o c2]; cbn [fst snd].
    rewrite if_nonempty_kot. destruct (nonempty (last (r1 :: rest) [])); cbn [fst snd]; rewrite ?kac_add, !map_app; reflexivity.
  - rewrite if_nonempty_kot. destruct (nonempty (last (r1 :: rest) [])); cbn [fst snd]; rewrite ?kac_add, !map_app; reflexivity.
Qed.
Lemma true_kti f : is_true_k (kti f) = is_true f. Proof. now destruct f. Qed.
Lemma kac_all l : forall c, handle_all_k space (map kti l) (kac c) = (map kot (fst (handle_all space l c)), kac (snd (handle_all space l c))).
Proof.
  induction l as [|f l IH]; intros c; [reflexivity|]. cbn [map handle_all_k handle_all]. rewrite true_kti. destruct (is_true f); [|apply IH].
  rewrite kac_handle. destruct (handle_fragment space f c) as [o c1]; cbn [fst snd]. rewrite IH.
  destruct (handle_all space l c1) as [o' c2]; cbn [fst snd]. now rewrite map_app.
Qed.
Theorem on_str l : to_line_diff_k space (map kti l) = let* d := to_line_diff space l in Ok (map kot d).
Proof.
  unfold to_line_diff_k, to_line_diff. change new_kacc with (kac new_acc). rewrite kac_all.
  destruct (handle_all space l new_acc) as [o c]; cbn [fst snd]. rewrite kac_flush. destruct (flush c) as [t|e]; [|reflexivity].
  cbn [bind]. rewrite !map_app. do 3 f_equal.
  assert (X : existsb is_true_k (map kti l) = existsb is_true l).
  { clear. induction l as [|f l IH]; [reflexivity|]. cbn [map existsb]. now rewrite true_kti, IH. }
  rewrite X. now destruct (existsb is_true l).
Qed.
Lemma bare_kit i : bare_item (kit i) = i. Proof. now destruct i. Qed.
Lemma bare_kot i : bare (kot i) = i.
Proof.
  assert (X : forall l, map bare_item (map kit l) = l).
  { intros l. rewrite map_map. induction l as [|j l IH]; [reflexivity|]. cbn. now rewrite bare_kit, IH. }
  destruct i as [s|a b]; [reflexivity|]. cbn [kot bare]. now rewrite !X.
Qed.
Lemma bare_all d : map bare (map kot d) = d.
Proof. rewrite map_map. induction d as [|i d IH]; [reflexivity|]. cbn. now rewrite bare_kot, IH. Qed.
Lemma kot_str d : Forall all_str (map kot d).
Proof.
  apply Forall_forall. intros o H. apply in_map_iff in H as [i [<- _]]. destruct i as [s|a b]; [exact I|].
  split; apply Forall_forall; intros y Hy; apply in_map_iff in Hy as [j [<- _]]; destruct j; cbn; auto.
Qed.

(** ** bytes *)
Definition as_bytes (i : titem) : Prop :=
  match i with TText t => kind_of t = SBytes | TChange a b => kind_of a = SBytes /\ kind_of b = SBytes end.
Fixpoint changes_into (l : list titem) : list kitem :=
  match l with [] => [] | TText _ :: l => changes_into l | TChange a _ :: l => KChange a (CStr []) :: changes_into l end.
Fixpoint changes_from (l : list titem) : list kitem :=
  match l with [] => [] | TText _ :: l => changes_from l | TChange _ b :: l => KChange (CStr []) b :: changes_from l end.
Lemma bytes_all l : Forall as_bytes l -> forall c, exists f g,
  handle_all_k space l c = ([], mkK (k_into c ++ changes_into l) (k_from c ++ changes_from l) f g) /\
  (f = true <-> k_finishable c = true /\ new_parts l = [] /\ old_parts l = []) /\
  g = (k_conflict c || existsb (fun i => match i with TText _ => false | TChange _ _ => true end) l).
Proof.
  induction 1 as [|i l B F IH]; intros c.
  - exists (k_finishable c), (k_conflict c). cbn. rewrite !app_nil_r, orb_false_r. destruct c; cbn. split; [reflexivity|]. split; [tauto|reflexivity].
  - cbn [handle_all_k]. destruct i as [t|a b].
    + destruct t as [t|t]; [|discriminate].
      assert (X : exists f g, handle_all_k space l c = ([], mkK (k_into c ++ changes_into l) (k_from c ++ changes_from l) f g) /\
        (f = true <-> k_finishable c = true /\ new_parts l = [] /\ old_parts l = []) /\
        g = (k_conflict c || existsb (fun i => match i with TText _ => false | TChange _ _ => true end) l)) by apply IH.
      destruct X as (f & g & E & Hf & Hg). exists f, g. cbn [is_true_k handle_fragment_k changes_into changes_from new_parts old_parts flat_map existsb orb].
      fold (new_parts l) (old_parts l). destruct (nonempty_k (CBytes t)); rewrite E; repeat split; try tauto.
    + cbn [is_true_k handle_fragment_k]. destruct B as [Ba Bb].
      destruct (IH (add_conflict_k a b c)) as (f & g & E & Hf & Hg). exists f, g. rewrite E. cbn [app].
      cbn [add_conflict_k k_into k_from k_finishable k_conflict changes_into changes_from new_parts old_parts flat_map existsb orb] in *.
      fold (new_parts l) (old_parts l) in *. rewrite <- !app_assoc. split; [reflexivity|].
      split; [|rewrite Hg; cbn; now rewrite orb_true_r].
      rewrite Hf. destruct a as [a|a]; [|discriminate]. destruct b as [b|b]; [|discriminate]. unfold nonempty_k; cbn [raw ends_nl_k].
      destruct a, b; cbn [nonempty app]; rewrite ?andb_true_iff; intuition (try discriminate; try congruence).
Qed.
Lemma into_of l : side_text (map bare_item (changes_into l)) = new_parts l.
Proof. unfold side_text, new_parts. induction l as [|[t|a b] l IH]; [reflexivity|exact IH|]. cbn. now rewrite IH, app_nil_r. Qed.
Lemma from_of l : side_text (map bare_item (changes_from l)) = old_parts l.
Proof. unfold side_text, old_parts. induction l as [|[t|a b] l IH]; [reflexivity|exact IH|]. cbn. now rewrite IH. Qed.
Lemma no_changes l : existsb (fun i => match i with TText _ => false | TChange _ _ => true end) l = false ->
  changes_into l = [] /\ changes_from l = [] /\ new_parts l = [] /\ old_parts l = [].
Proof. induction l as [|[t|a b] l IH]; cbn; [auto|exact IH|discriminate]. Qed.
Lemma side_snoc a s : side_text (map bare_item (a ++ [KStr s])) = side_text (map bare_item a) ++ s.
Proof. unfold side_text. rewrite map_app, flat_map_app. cbn. now rewrite app_nil_r. Qed.
Theorem on_bytes l : Forall as_bytes l -> exists d, to_line_diff_k space l = Ok d /\ (length d <= 1)%nat /\
  let tail := match new_parts l, old_parts l with [], [] => [] | _, _ => [10] end in
  into_text (map bare d) = new_parts l ++ tail /\ from_text (map bare d) = old_parts l ++ tail.
Proof.
  intros F. destruct (bytes_all l F new_kacc) as (f & g & E & Hf & Hg). unfold to_line_diff_k. rewrite E. cbn [new_kacc k_into k_from k_finishable k_conflict app orb] in *.
  unfold flush_k. cbn [k_conflict k_finishable k_from].
  destruct g eqn:G.
  - assert (X : existsb is_true_k l = true).
    { apply existsb_exists. symmetry in Hg. apply existsb_exists in Hg as [i [Hi Ti]]. exists i. split; [exact Hi|]. now destruct i. }
    rewrite X. cbn [bind app]. eexists. split; [reflexivity|]. unfold finish_conflict_k, conditional_add_k. cbn [k_finishable].
    destruct f.
    + assert (Y : new_parts l = [] /\ old_parts l = []) by (apply Hf; reflexivity). destruct Y as [Y1 Y2]. rewrite Y1, Y2. cbn [nonempty fst k_into k_from app map bare length].
      unfold into_text, from_text. cbn [flat_map]. rewrite into_of, from_of, Y1, Y2. cbn. repeat split; lia.
    + assert (Y : match new_parts l, old_parts l with [], [] => [] | _, _ => [10] end = [10]).
      { destruct (new_parts l) eqn:N; [|reflexivity]. destruct (old_parts l) eqn:O; [|reflexivity]. symmetry. exfalso.
        assert (false = true) by (apply Hf; auto). discriminate. }
      rewrite Y. cbn [nonempty fst add_frag_k k_into k_from app map bare length].
      unfold into_text, from_text. cbn [flat_map]. rewrite !side_snoc, into_of, from_of, !app_nil_r. repeat split; lia.
  - symmetry in Hg. destruct (no_changes l Hg) as (A & B & C & D). rewrite B, C, D. cbn [bind app].
    destruct (existsb is_true_k l); eexists; (split; [reflexivity|]); cbn; repeat split; lia.
Qed.

Variable re_w : Z -> bool.
Lemma token_diff_ok k o m : kind_of o = kind_of m -> encodable k o -> encodable k m -> exists st l tso tsm D0,
  token_diff re_w k o m = (st, Ok l) /\ texts re_w k o = Some tso /\ texts re_w k m = Some tsm /\ diff_token_sequences tso tsm = Ok D0 /\
  decode_changes k st l = Ok (map (present (kind_of o)) D0) /\ snd (diff re_w k new_tokenizer o m) = Ok (map (present (kind_of o)) D0).
Proof.
  intros Hk Eo Em. destruct (diff_ok re_w k new_tokenizer o m new_ok (or_introl eq_refl) Hk Eo Em) as (st & tso & tsm & D0 & To & Tm & HD & E).
  unfold token_diff. unfold diff in *. destruct (encode re_w k new_tokenizer o) as [s1 [to|e]]; [|discriminate].
  destruct (encode re_w k s1 m) as [s2 [tm|e]]; [|discriminate]. cbn [bind]. injection E as E1 E2.
  destruct (diff_token_sequences to tm) as [l|e] eqn:HL; [|discriminate]. cbn [bind] in E2.
  exists s2, l, tso, tsm, D0. cbn [snd bind]. repeat split; auto.
Qed.
Theorem str_lines k original modified : real_text original -> real_text modified -> exists st l d,
  token_diff re_w k (CStr original) (CStr modified) = (st, Ok l) /\ decode_and_line_diff_changes space k st l = Ok d /\
  let tail := last_newline modified original in
  into_text (map bare d) = modified ++ tail /\ from_text (map bare d) = original ++ tail /\
  Forall whole_item (map bare d) /\ Forall all_str d.
Proof.
  intros Ro Rm.
  assert (Eo : encodable k (CStr original)) by (split; [exact Ro|now destruct k]).
  assert (Em : encodable k (CStr modified)) by (split; [exact Rm|now destruct k]).
  destruct (token_diff_ok k (CStr original) (CStr modified) eq_refl Eo Em) as (st & l & tso & tsm & D0 & T & _ & _ & _ & HD & HS).
  destruct (diff_stream re_w k original modified Ro Rm) as (d0 & E0 & B & A & V). rewrite HS in E0. injection E0 as <-.
  destruct (line_diff_last space _ V) as (d & Ed & I1 & I2). destruct (line_diff_whole space (map as_ditem (map (present SStr) D0))) as (d' & Ed' & W).
  rewrite Ed in Ed'. injection Ed' as <-. rewrite A, B in *.
  exists st, l, (map kot d). split; [exact T|]. split; [|rewrite bare_all; repeat split; auto using kot_str].
  unfold decode_and_line_diff_changes. rewrite HD. cbn [bind].
  assert (X : map (present (kind_of (CStr original))) D0 = map kti (map as_ditem (map (present SStr) D0))).
  { rewrite !map_map. apply map_ext. now intros []. }
  rewrite X, on_str, Ed. reflexivity.
Qed.
Theorem bytes_lines k original modified : encodable k (CBytes original) -> encodable k (CBytes modified) -> exists st l d c,
  token_diff re_w k (CBytes original) (CBytes modified) = (st, Ok l) /\ decode_and_line_diff_changes space k st l = Ok d /\
  snd (diff re_w k new_tokenizer (CBytes original) (CBytes modified)) = Ok c /\ (length d <= 1)%nat /\
  let tail := match new_parts c, old_parts c with [], [] => [] | _, _ => [10] end in
  into_text (map bare d) = new_parts c ++ tail /\ from_text (map bare d) = old_parts c ++ tail.
Proof.
  intros Eo Em. destruct (token_diff_ok k (CBytes original) (CBytes modified) eq_refl Eo Em) as (st & l & tso & tsm & D0 & T & _ & _ & _ & HD & HS).
  destruct (on_bytes (map (present SBytes) D0)) as (d & Ed & L & X).
  { apply Forall_forall. intros i Hi. apply in_map_iff in Hi as [j [<- _]]. destruct j; cbn; auto. }
  exists st, l, d, (map (present SBytes) D0). split; [exact T|]. split; [unfold decode_and_line_diff_changes; now rewrite HD|]. split; [exact HS|]. split; [exact L|exact X].
Qed.
(** the same bytes twice *)
Theorem bytes_equal k b : encodable k (CBytes b) -> exists st l,
  token_diff re_w k (CBytes b) (CBytes b) = (st, Ok l) /\
  decode_and_line_diff_changes space k st l = Ok (match b with [] => [KText []] | _ => [] end).
Proof.
  intros Eb. destruct (token_diff_ok k (CBytes b) (CBytes b) eq_refl Eb Eb) as (st & l & ts & ts' & D0 & T & T1 & T2 & Hd & HD & _).
  rewrite T1 in T2. injection T2 as <-. rewrite diff_self in Hd. injection Hd as <-.
  exists st, l. split; [exact T|]. unfold decode_and_line_diff_changes. rewrite HD. cbn [bind].
  apply texts_concat in T1. cbn [raw] in T1. destruct ts as [|t ts]; [cbn in T1; subst b; reflexivity|].
  cbn [map present kind_of]. rewrite T1. unfold to_line_diff_k. cbn [handle_all_k handle_fragment_k existsb].
  destruct b; reflexivity.
Qed.
End WithSpace.
