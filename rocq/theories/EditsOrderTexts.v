(** Proofs for C83: merging several edited copies of a text, by the tokens of a tokenizer. *)
From Coq Require Import Lia ZArith.
From Verif Require Import Base Changesets SpecDiff Merge SpecMerge Tokenizers Markup SpecMarkup
  SpecTokens TokensProofs SpecEdits EditsProofs EditsOrder SpecOrder.

(** wherever some of the edits are made, the units of the text that comes out are those
    that have been put together *)
Definition settled (re_w : Z -> bool) (o : options) (p : list Z) (bs : list (list Z)) : Prop := forall s, distinct_edits s ->
  units re_w (tokenizer_of o) (CStr p) (diff_before s) -> (forall e, In e (edits 0 s) -> edit_of re_w o p bs e) ->
  units re_w (tokenizer_of o) (CStr (concat (diff_after s))) (diff_after s).

Lemma edited_unique re_w o p b s s' : edited re_w o p b s -> edited re_w o p b s' -> s = s'.
Proof.
  intros (_ & P & U & D) (_ & P' & U' & D').
  pose proof (diff_finds_edits s D) as F1. pose proof (diff_finds_edits s' D') as F2.
  rewrite (units_unique re_w _ _ _ _ P' P), (units_unique re_w _ _ _ _ U' U) in F2. rewrite F1 in F2. now injection F2.
Qed.

Section OrderTexts.
Variable re_w : Z -> bool.
Variable o : options.
Variable p : list Z.
Hypothesis Rp : real_text p.
Variable bs : list (list Z).
Notation tok := (tokenizer_of o).
Hypothesis Hb : forall b, In b bs -> exists s, edited re_w o p b s.
Hypothesis Ha : forall e e', edit_of re_w o p bs e -> edit_of re_w o p bs e' -> apart_edits e e'.
Notation script := (list (ditem (list Z))).
Implicit Types s : script.

Lemma real_concat (ts : list (list Z)) : real_text (concat ts) <-> forall x, In x ts -> real_text x.
Proof.
  unfold real_text. split.
  - intros H x I. rewrite Forall_forall in *. intros c C. apply H. apply in_concat. eauto.
  - intros H. apply Forall_forall. intros c C. apply in_concat in C as (x & I & C). specialize (H x I). rewrite Forall_forall in H. auto.
Qed.
(** every token of a text with some of the edits is one of the parent or of a copy *)
Lemma token_from s x : distinct_edits s -> (forall e, In e (edits 0 s) -> edit_of re_w o p bs e) -> In x (diff_after s) ->
  In x (diff_before s) \/ exists b s', In b bs /\ edited re_w o p b s' /\ In x (diff_after s').
Proof.
  intros D M I. apply after_cases in I as [I|I]; [left; now apply kept_before|right].
  apply (inserted_in s x 0) in I as (e & I1 & I2). destruct (M e I1) as (b & s' & B & Ed & I').
  exists b, s'. split; [exact B|]. split; [exact Ed|]. apply inserted_after, (inserted_in s' x 0). eauto.
Qed.
Lemma units_raw k c ts : units re_w k c ts -> concat ts = raw c.
Proof. now intros []. Qed.
Lemma made_real s : distinct_edits s -> units re_w tok (CStr p) (diff_before s) ->
  (forall e, In e (edits 0 s) -> edit_of re_w o p bs e) -> real_text (concat (diff_after s)).
Proof.
  intros D U M. apply real_concat. intros x I. destruct (token_from s x D M I) as [J|(b & s' & B & (R & _ & U' & _) & J)].
  - pose proof (units_raw _ _ _ U) as Q. cbn in Q. rewrite <- Q in Rp. exact (proj1 (real_concat _) Rp x J).
  - pose proof (units_raw _ _ _ U') as Q. cbn in Q. rewrite <- Q in R. exact (proj1 (real_concat _) R x J).
Qed.

Section Settled.
Hypothesis Hs : settled re_w o p bs.
Lemma texts_turns rest : forall b0 s0, edited re_w o p b0 s0 -> (forall e, In e (edits 0 s0) -> edit_of re_w o p bs e) ->
  incl rest bs ->
  exists m s, edited re_w o p m s /\
    (forall e, In e (edits 0 s) <-> In e (edits 0 s0) \/ edit_of re_w o p rest e) /\
    texts_in_turn re_w o p b0 rest = Some m.
Proof.
  induction rest as [|b1 rest IH]; intros b0 s0 E0 M0 L.
  - exists b0, s0. split; [exact E0|]. split; [|reflexivity]. intros e. split; [now left|].
    intros [H|(b & s & [] & _)]. exact H.
  - destruct (Hb b1 (L b1 (or_introl eq_refl))) as (s1 & E1).
    assert (M1 : forall e, In e (edits 0 s1) -> edit_of re_w o p bs e).
    { intros e I. exists b1, s1. split; [apply L; now left|]. now split. }
    pose proof E0 as (R0 & P0 & U0 & D0). pose proof E1 as (R1 & P1 & U1 & D1).
    destruct (one_more KTuple s0 s1 D0 D1 (units_unique re_w _ _ _ _ P0 P1)) as (s & D & B & Es & Ms).
    { intros x y X Y. now apply Ha; [apply M1|apply M0]. }
    assert (M : forall e, In e (edits 0 s) -> edit_of re_w o p bs e).
    { intros e I. apply Es in I as [I|I]; auto. }
    assert (Ed : edited re_w o p (concat (diff_after s)) s).
    { rewrite <- B in P0. split; [now apply made_real|]. split; [exact P0|]. split; [now apply Hs|exact D]. }
    destruct (IH _ s Ed M (fun x I => L x (or_intror I))) as (m & r & Er & Mr & Tr).
    exists m, r. split; [exact Er|]. split.
    + intros e. rewrite Mr, Es. split.
      * intros [[H|H]|(b & s' & I & H)]; [now left| |].
        -- right. exists b1, s1. split; [now left|]. now split.
        -- right. exists b, s'. split; [now right|exact H].
      * intros [H|(b & s' & [<-|I] & H & J)]; [left; now left| |right; exists b, s'; auto].
        left; right. now rewrite (edited_unique _ _ _ _ _ _ E1 H).
    + cbn [texts_in_turn]. destruct (merge_units re_w o p b0 b1 Rp R0 R1) as (N & tp & tc & tt & E & Vp & Vc & Vt & HM & _).
      rewrite (units_unique re_w _ _ _ _ Vp P0), (units_unique re_w _ _ _ _ Vc U0), (units_unique re_w _ _ _ _ Vt U1), Ms in HM.
      injection HM as <-. rewrite E. exact Tr.
Qed.
Theorem texts_any_order : bs <> [] -> exists m s, edited re_w o p m s /\
  (forall e, In e (edits 0 s) <-> edit_of re_w o p bs e) /\
  forall b0 rest, (forall b, In b (b0 :: rest) <-> In b bs) -> texts_in_turn re_w o p b0 rest = Some m.
Proof.
  intros N.
  assert (G : forall b0 rest, (forall b, In b (b0 :: rest) <-> In b bs) -> exists m s, edited re_w o p m s /\
    (forall e, In e (edits 0 s) <-> edit_of re_w o p bs e) /\ texts_in_turn re_w o p b0 rest = Some m).
  { intros b0 rest H. destruct (Hb b0 (proj1 (H b0) (or_introl eq_refl))) as (s0 & E0).
    destruct (texts_turns rest b0 s0 E0) as (m & s & Ed & M & T).
    - intros e I. exists b0, s0. split; [apply H; now left|]. now split.
    - intros b I. apply H. now right.
    - exists m, s. split; [exact Ed|]. split; [|exact T]. intros e. rewrite M. split.
      + intros [I|(b & s' & I & J)]; [exists b0, s0; split; [apply H; now left|now split]|].
        exists b, s'. split; [apply H; now right|exact J].
      + intros (b & s' & I & J & K). apply H in I as [<-|I]; [left|right; exists b, s'; auto].
        now rewrite (edited_unique _ _ _ _ _ _ E0 J). }
  destruct bs as [|c cs] eqn:Q; [contradiction|].
  destruct (G c cs (fun b => iff_refl _)) as (m & s & Ed & M & _).
  exists m, s. split; [exact Ed|]. split; [exact M|]. intros b0 rest H.
  destruct (G b0 rest H) as (m' & s' & Ed' & M' & T'). rewrite T'. f_equal.
  destruct Ed as (_ & P & U & D), Ed' as (_ & P' & U' & D').
  apply units_raw in U. apply units_raw in U'. cbn in U, U'. rewrite <- U, <- U'. f_equal.
  apply same_edits; [exact D'|exact D|exact (units_unique re_w _ _ _ _ P' P)|]. intros e. rewrite M', M. reflexivity.
Qed.
End Settled.

(** * Characters and lines *)
Lemma settled_characters : o_words o = false -> o_lines o = false -> settled re_w o p bs.
Proof.
  intros W L s D U M. unfold tokenizer_of in *. rewrite W, L in *. split; [reflexivity|]. cbn. apply Forall_forall. intros x I.
  destruct (token_from s x D M I) as [J|(b & s' & B & (_ & _ & U' & _) & J)].
  - destruct U as [_ U]. cbn in U. rewrite Forall_forall in U. auto.
  - unfold tokenizer_of in U'. rewrite W, L in U'. destruct U' as [_ U']. cbn in U'. rewrite Forall_forall in U'. auto.
Qed.
End OrderTexts.

Definition line (t : list Z) : Prop := exists l, ~ In 10%Z l /\ t = l ++ [10%Z].
Notation script := (list (ditem (list Z))).
Lemma line_10 t : line t -> In 10%Z t.
Proof. intros (l & _ & ->). apply in_or_app; right; now left. Qed.
Lemma split_edit {T} (s : list (ditem T)) e : forall pos, In e (edits pos s) ->
  exists s1 b s2, s = s1 ++ DChange (e_ins e) b :: s2 /\ pos + length (diff_before s1) = e_pos e /\ length b = e_len e.
Proof.
  induction s as [|[t|a b] s IH]; intros pos H; cbn in H; [destruct H| |].
  - destruct (IH _ H) as (s1 & b & s2 & -> & A & B). exists (DText t :: s1), b, s2. split; [reflexivity|].
    cbn. rewrite app_length. fold (diff_before s1). split; [lia|exact B].
  - destruct H as [<-|H].
    + exists [], b, s. cbn. repeat split; lia.
    + destruct (IH _ H) as (s1 & b' & s2 & -> & A & B). exists (DChange a b :: s1), b', s2. split; [reflexivity|].
      cbn. rewrite app_length. fold (diff_before s1). split; [lia|exact B].
Qed.
Lemma edit_at {T} (s1 : list (ditem T)) a b s2 : forall pos, In (pos + length (diff_before s1), a, length b) (edits pos (s1 ++ DChange a b :: s2)).
Proof.
  induction s1 as [|[t|x y] s1 IH]; intros pos; cbn [app edits diff_before flat_map].
  - left. cbn. now rewrite Nat.add_0_r.
  - fold (diff_before s1). rewrite app_length, Nat.add_assoc. apply IH.
  - fold (diff_before s1). right. rewrite app_length, Nat.add_assoc. apply IH.
Qed.
Lemma lines_parts (x y : list (list Z)) : text_lines (x ++ y) -> y <> [] -> Forall line x.
Proof.
  intros (l & r & Q & _ & F) N. destruct (exists_last N) as (y0 & z & ->). rewrite app_assoc in Q.
  apply app_inj_tail in Q as [Q _]. subst l. apply Forall_app in F. apply F.
Qed.
Lemma lines_end (x y : list (list Z)) : text_lines (x ++ y) -> y <> [] -> exists y0 z, y = y0 ++ [z] /\ Forall line y0 /\ ~ In 10%Z z.
Proof.
  intros (l & r & Q & R & F) N. destruct (exists_last N) as (y0 & z & ->). exists y0, z. rewrite app_assoc in Q.
  apply app_inj_tail in Q as [Q ->]. subst l. apply Forall_app in F. repeat split; tauto.
Qed.
Lemma after_app {T} (a b : list (ditem T)) : diff_after (a ++ b) = diff_after a ++ diff_after b.
Proof. apply flat_map_app. Qed.
Lemma before_app {T} (a b : list (ditem T)) : diff_before (a ++ b) = diff_before a ++ diff_before b.
Proof. apply flat_map_app. Qed.
Lemma next_text {T} (s1 : list (ditem T)) a b s2 : normal_diff (s1 ++ DChange a b :: s2) -> s2 <> [] ->
  exists t s3, s2 = DText t :: s3 /\ t <> [].
Proof.
  intros [A F] N. destruct s2 as [|y s3]; [contradiction|].
  assert (X : nth_error (s1 ++ DChange a b :: y :: s3) (length s1) = Some (DChange a b)) by (rewrite nth_error_app2, Nat.sub_diag; [reflexivity|lia]).
  assert (Y : nth_error (s1 ++ DChange a b :: y :: s3) (S (length s1)) = Some y) by (rewrite nth_error_app2, Nat.sub_succ_l, Nat.sub_diag; [reflexivity|lia|lia]).
  destruct (A _ _ _ X Y) as [[(t & Q) _]|[_ (t & ->)]]; [discriminate|]. exists t, s3. split; [reflexivity|].
  apply Forall_app in F as [_ F]. inversion F as [|? ? _ F2]; subst. now inversion F2.
Qed.
Lemma last_text {T} (s1 : list (ditem T)) a b : normal_diff (s1 ++ [DChange a b]) -> s1 <> [] ->
  exists t s0, s1 = s0 ++ [DText t] /\ t <> [].
Proof.
  intros [A F] N. destruct (exists_last N) as (s0 & x & ->). rewrite <- app_assoc in *. cbn [app] in *.
  assert (X : nth_error (s0 ++ [x; DChange a b]) (length s0) = Some x) by (rewrite nth_error_app2, Nat.sub_diag; [reflexivity|lia]).
  assert (Y : nth_error (s0 ++ [x; DChange a b]) (S (length s0)) = Some (DChange a b)) by (rewrite nth_error_app2, Nat.sub_succ_l, Nat.sub_diag; [reflexivity|lia|lia]).
  destruct (A _ _ _ X Y) as [[(t & ->) _]|[_ (t & Q)]]; [|discriminate]. exists t, s0. split; [reflexivity|].
  apply Forall_app in F as [_ F]. now inversion F.
Qed.
Lemma after_text {T} (s1 : list (ditem T)) t y s2 : normal_diff (s1 ++ DText t :: y :: s2) -> exists a b, y = DChange a b.
Proof.
  intros [A _].
  assert (X : nth_error (s1 ++ DText t :: y :: s2) (length s1) = Some (DText t)) by (rewrite nth_error_app2, Nat.sub_diag; [reflexivity|lia]).
  assert (Y : nth_error (s1 ++ DText t :: y :: s2) (S (length s1)) = Some y) by (rewrite nth_error_app2, Nat.sub_succ_l, Nat.sub_diag; [reflexivity|lia|lia]).
  destruct (A _ _ _ X Y) as [[_ (a & b & ->)]|[(a & b & Q) _]]; [eauto|discriminate].
Qed.
(** a change of the end replaces the end by an end *)
Lemma last_change s1 a b : normal_diff (s1 ++ [DChange a b]) -> text_lines (diff_before (s1 ++ [DChange a b])) ->
  text_lines (diff_after (s1 ++ [DChange a b])) -> a <> [] /\ b <> [].
Proof.
  intros N P A. rewrite before_app in P. rewrite after_app in A. cbn in P, A. rewrite app_nil_r in P, A.
  assert (F : a <> [] \/ b <> []).
  { destruct N as [_ F]. apply Forall_app in F as [_ F]. apply Forall_inv in F. destruct F as [H _].
    destruct a; [|left; discriminate]. destruct b; [|right; discriminate]. now destruct H. }
  destruct s1 as [|i s1'] eqn:Q; [split; intros ->|].
  - destruct A as (l & r & Q' & _). now destruct l.
  - destruct P as (l & r & Q' & _). now destruct l.
  - rewrite <- Q in *. destruct (last_text s1 a b N) as (t & s0 & -> & Ht); [now rewrite Q|].
    rewrite before_app in P. rewrite after_app in A. cbn in P, A. rewrite app_nil_r in P, A. rewrite <- app_assoc in P, A.
    destruct (exists_last Ht) as (t0 & z & ->). split; intros ->.
    + destruct F as [F|F]; [contradiction|]. rewrite app_nil_r in A. destruct (lines_end _ _ A Ht) as (y0 & z' & E & _ & R).
      apply app_inj_tail in E as [_ <-]. rewrite app_assoc in P. apply lines_parts in P; [|exact F].
      apply Forall_app in P as [_ P]. apply Forall_app in P as [_ P]. inversion P; subst. now apply R, line_10.
    + destruct F as [F|F]; [|contradiction]. rewrite app_nil_r in P. destruct (lines_end _ _ P Ht) as (y0 & z' & E & _ & R).
      apply app_inj_tail in E as [_ <-]. rewrite app_assoc in A. apply lines_parts in A; [|exact F].
      apply Forall_app in A as [_ A]. apply Forall_app in A as [_ A]. inversion A; subst. now apply R, line_10.
Qed.
Lemma settled_lines re_w o p bs : o_words o = false -> o_lines o = true -> settled re_w o p bs.
Proof.
  intros W L s D U M. unfold tokenizer_of in *. rewrite W, L in *. split; [reflexivity|]. cbn.
  destruct U as [Up U]. cbn in U. pose proof D as (N & _).
  (* an edit of s, seen in the copy it comes from *)
  assert (G : forall s1 a b s2, s = s1 ++ DChange a b :: s2 ->
    (s2 <> [] -> Forall line a) /\ (s2 = [] -> b <> [] /\ exists a0 z, a = a0 ++ [z] /\ Forall line a0 /\ ~ In 10%Z z)).
  { intros s1 a b s2 Q. pose proof (edit_at s1 a b s2 0) as I. rewrite <- Q in I.
    destruct (M _ I) as (c & s' & _ & (_ & P' & U' & D') & I').
    assert (B' : diff_before s' = diff_before s).
    { unfold tokenizer_of in P'. rewrite W, L in P'. apply (units_unique re_w KLine (CStr p)); [exact P'|]. now split. }
    destruct (split_edit s' _ 0 I') as (t1 & b' & t2 & Q' & E1 & E2). unfold e_ins, e_pos, e_len in *. cbn [fst snd] in *.
    unfold tokenizer_of in U'. rewrite W, L in U'. destruct U' as [_ U']. cbn in U'. destruct D' as (N' & _).
    assert (Len : length (diff_before t2) = length (diff_before s2)).
    { rewrite Q, Q', !before_app in B'. apply (f_equal (@length _)) in B'. cbn in B'. rewrite !app_length in B'.
      fold (diff_before t2) in B'. fold (diff_before s2) in B'. lia. }
    split; intros H.
    - assert (T : t2 <> []).
      { intros ->. rewrite Q in N. destruct (next_text _ _ _ _ N H) as (t & s3 & -> & Ht). cbn in Len. rewrite app_length in Len.
        destruct t; [contradiction|cbn in Len; lia]. }
      rewrite Q' in N', U'. destruct (next_text _ _ _ _ N' T) as (t & s3 & -> & Ht).
      rewrite after_app in U'. cbn in U'. rewrite app_assoc in U'. apply lines_parts in U'; [now apply Forall_app in U'|].
      intros X. apply app_eq_nil in X as [X _]. contradiction.
    - subst s2. assert (t2 = []) as ->.
      { destruct t2 as [|y t2]; [reflexivity|]. rewrite Q' in N'. destruct (next_text _ _ _ _ N') as (t & s3 & X & Ht); [discriminate|].
        injection X as -> ->. cbn in Len. rewrite app_length in Len. destruct t; [contradiction|cbn in Len; lia]. }
      rewrite Q' in N', U', B'. rewrite <- B' in U. destruct (last_change t1 a b' N' U U') as [Na Nb]. split.
      + intros ->. destruct b'; [contradiction|discriminate].
      + rewrite after_app in U'. cbn in U'. rewrite app_nil_r in U'. destruct (lines_end _ _ U' Na) as (y0 & z & H). eauto. }
  (* items with something after them are made of lines *)
  assert (K : forall s1 i s2, s = s1 ++ i :: s2 -> s2 <> [] -> Forall line (diff_after [i])).
  { intros s1 [t|a b] s2 Q H; cbn; rewrite app_nil_r; [|now apply (G _ _ _ _ Q)].
    destruct s2 as [|y s2]; [contradiction|]. rewrite Q in N. destruct (after_text _ _ _ _ N) as (a & b & ->).
    rewrite Q, before_app in U. cbn in U. rewrite app_assoc in U. apply lines_parts in U; [now apply Forall_app in U|].
    intros X. apply app_eq_nil in X as [X Y].
    destruct s2 as [|y s2].
    - apply (G (s1 ++ [DText t]) a b []); [now rewrite <- app_assoc|reflexivity|exact X].
    - destruct (next_text (s1 ++ [DText t]) a b (y :: s2)) as (t' & s3 & Z & Ht); [now rewrite <- app_assoc|discriminate|].
      injection Z as -> ->. cbn in Y. apply app_eq_nil in Y as [Y _]. contradiction. }
  destruct s as [|i0 s0] eqn:Q0; [destruct U as (l & r & X & _); now destruct l|]. rewrite <- Q0 in *.
  destruct (exists_last (l := s)) as (u & i & Q); [now rewrite Q0|].
  assert (Lu : Forall line (diff_after u)).
  { apply Forall_forall. intros x X. apply in_flat_map in X as (j & J & X). apply in_split in J as (u1 & u2 & ->).
    rewrite <- app_assoc in Q. assert (Y : Forall line (diff_after [j])) by (apply (K u1 j (u2 ++ [i])); [exact Q|now destruct u2]).
    rewrite Forall_forall in Y. apply Y. cbn. now rewrite app_nil_r. }
  assert (La : exists a0 z, diff_after [i] = a0 ++ [z] /\ Forall line a0 /\ ~ In 10%Z z).
  { destruct i as [t|a b].
    - rewrite Q, before_app in U. cbn in U |- *. rewrite app_nil_r in *. apply (lines_end _ _ U).
      destruct N as [_ F]. rewrite Q in F. apply Forall_app in F as [_ F]. now inversion F.
    - cbn. rewrite app_nil_r. now apply (G u a b []). }
  destruct La as (a0 & z & Ea & Fa & Rz). exists (diff_after u ++ a0), z. split; [|split; [exact Rz|]].
  - rewrite Q, after_app, Ea. apply app_assoc.
  - apply Forall_app. split; assumption.
Qed.
Lemma nth_error_app_left {A} (x : list A) c y k v : nth_error (x ++ [c]) k = Some v -> nth_error (x ++ c :: y) k = Some v.
Proof.
  intros H. change (c :: y) with ([c] ++ y). rewrite app_assoc, nth_error_app1; [exact H|].
  apply nth_error_Some. now rewrite H.
Qed.
Lemma app_inj_len {A} (x x' y y' : list A) : x ++ y = x' ++ y' -> length x = length x' -> x = x' /\ y = y'.
Proof.
  revert x'. induction x as [|a x IH]; intros [|a' x'] Q L; cbn in *; try discriminate; [now split|].
  injection Q as -> Q. destruct (IH x' Q) as [-> ->]; [lia|]. now split.
Qed.
(** * Words *)
Section Words.
Variable W : list Z -> Prop.
Fixpoint chain (l : list (list Z)) : Prop :=
  match l with [] => True | t :: r => match r with [] => True | t' :: _ => ~ (W t /\ W t') end /\ chain r end.
Lemma chain_spec l : chain l <-> forall x t t' y, l = x ++ t :: t' :: y -> ~ (W t /\ W t').
Proof.
  induction l as [|t r IH]; cbn [chain].
  - split; [|auto]. intros _ [|] ? ? ? Q; discriminate.
  - rewrite IH. split.
    + intros [H C] [|u x] a b y Q; cbn in Q; injection Q as -> ->; [exact H|now apply (C x a b y)].
    + intros H. split; [destruct r as [|t' r]; [exact I|now apply (H [] t t' r)]|].
      intros x a b y ->. now apply (H (t :: x) a b y).
Qed.
Lemma chain_inner x m y : chain (x ++ m ++ y) -> chain m.
Proof.
  rewrite !chain_spec. intros H u a b v ->. apply (H (x ++ u) a b (v ++ y)). now rewrite <- !app_assoc.
Qed.
Lemma chain_glue A z B : chain (A ++ [z]) -> chain (z :: B) -> chain (A ++ z :: B).
Proof.
  induction A as [|t A IH]; intros H1 H2; [exact H2|]. cbn [app chain] in H1 |- *. destruct H1 as [H H1]. split; [|now apply IH].
  destruct A; exact H.
Qed.
(** from the chains around each change to that of the whole *)
Lemma chain_script (s : script) : forall s1, normal_diff (s1 ++ s) ->
  (forall u, In (DText u) s -> chain u) ->
  (forall x lo a b ro y, s = x ++ DChange a b :: y ->
     (lo = [] \/ exists x0 u z, x = x0 ++ [DText (u ++ [z])] /\ lo = [z]) ->
     (ro = [] \/ exists w v y0, y = DText (w :: v) :: y0 /\ ro = [w]) -> chain (lo ++ a ++ ro)) ->
  chain (diff_after s).
Proof.
  remember (length s) as n eqn:L. assert (Ln : length s <= n) by lia. clear L. revert s Ln.
  induction n as [|n IH]; intros s Ln s1 N T C; [destruct s; [exact I|cbn in Ln; lia]|].
  destruct s as [|[u|a b] s]; [exact I| |].
  - (* a text; what follows begins with a change *)
    assert (Hu : u <> []) by (destruct N as [_ F]; apply Forall_app in F as [_ F]; now apply Forall_inv in F).
    destruct s as [|y s]; [cbn; rewrite app_nil_r; apply T; now left|].
    destruct (after_text _ _ _ _ N) as (a & b & ->). destruct (exists_last Hu) as (u0 & z & ->).
    cbn [diff_after flat_map]. fold (diff_after s).
    assert (Cu : chain (u0 ++ [z])) by (apply T; now left).
    rewrite <- app_assoc. apply chain_glue; [exact Cu|].
    destruct s as [|y s].
    + cbn. rewrite app_nil_r. pose proof (C [DText (u0 ++ [z])] [z] a b [] []) as H. rewrite app_nil_r in H. apply H; [reflexivity|right; exists [], u0, z; auto|now left].
    + destruct (next_text (s1 ++ [DText (u0 ++ [z])]) a b (y :: s)) as (t & s3 & Q & Ht); [now rewrite <- app_assoc|discriminate|].
      injection Q as -> ->. destruct t as [|w v]; [contradiction|].
      assert (R : chain (diff_after (DText (w :: v) :: s3))).
      { apply (IH _) with (s1 := s1 ++ [DText (u0 ++ [z]); DChange a b]); [cbn in Ln |- *; lia|now rewrite <- app_assoc| |].
        - intros x X. apply T. right; now right.
        - intros x lo a' b' ro y' Qx Hl Hr. apply (C (DText (u0 ++ [z]) :: DChange a b :: x) lo a' b' ro y'); [now rewrite Qx| |exact Hr].
          destruct Hl as [Hl|(x0 & u' & z' & -> & Hl)]; [now left|right]. exists (DText (u0 ++ [z]) :: DChange a b :: x0), u', z'. now split. }
      cbn [diff_after flat_map] in R |- *. change (chain ((z :: a) ++ w :: (v ++ diff_after s3))). apply chain_glue; [|exact R].
      apply (C [DText (u0 ++ [z])] [z] a b [w] (DText (w :: v) :: s3)); [reflexivity|right; exists [], u0, z; auto|right; exists w, v, s3; auto].
  - destruct s as [|y s].
    + cbn. rewrite app_nil_r. pose proof (C [] [] a b [] []) as H. cbn in H. rewrite app_nil_r in H. apply H; auto.
    + destruct (next_text s1 a b (y :: s) N) as (t & s3 & Q & Ht); [discriminate|].
      injection Q as -> ->. destruct t as [|w v]; [contradiction|].
      assert (R : chain (diff_after (DText (w :: v) :: s3))).
      { apply (IH _) with (s1 := s1 ++ [DChange a b]); [cbn in Ln |- *; lia|now rewrite <- app_assoc| |].
        - intros x X. apply T. now right.
        - intros x lo a' b' ro y' Qx Hl Hr. apply (C (DChange a b :: x) lo a' b' ro y'); [now rewrite Qx| |exact Hr].
          destruct Hl as [Hl|(x0 & u' & z' & -> & Hl)]; [now left|right]. exists (DChange a b :: x0), u', z'. now split. }
      cbn [diff_after flat_map] in R |- *. change (chain (a ++ w :: (v ++ diff_after s3))). apply chain_glue; [|exact R].
      apply (C [] [] a b [w] (DText (w :: v) :: s3)); [reflexivity|now left|right; exists w, v, s3; auto].
Qed.
End Words.
Lemma prev_text {T} (s1 : list (ditem T)) a b s2 : normal_diff (s1 ++ DChange a b :: s2) -> s1 <> [] ->
  exists t s0, s1 = s0 ++ [DText t] /\ t <> [].
Proof.
  intros [A F] N. apply (last_text s1 a b); [|exact N]. split.
  - intros k x y X Y. apply (A k); [apply nth_error_app_left|apply nth_error_app_left]; assumption.
  - apply Forall_app in F as [F1 F2]. apply Forall_app. split; [exact F1|]. constructor; [now inversion F2|constructor].
Qed.
Lemma settled_words re_w o p bs : o_words o = true -> settled re_w o p bs.
Proof.
  intros Wo s D U M. assert (K : tokenizer_of o = KSymbol) by (unfold tokenizer_of; now rewrite Wo). rewrite K in *.
  split; [reflexivity|]. cbn. destruct U as [Up [U1 U2]]. pose proof D as (N & _). split.
  - apply Forall_forall. intros x I. destruct (token_from re_w o p bs s x D M I) as [J|(b & s' & B & (_ & _ & U' & _) & J)].
    + rewrite Forall_forall in U1. auto.
    + rewrite K in U'. destruct U' as [_ [U' _]]. rewrite Forall_forall in U'. auto.
  - apply (chain_spec (word re_w)). apply (chain_script (word re_w) s []); [exact N| |].
    + intros u I. apply in_split in I as (x & y & ->). apply (chain_spec (word re_w)) in U2. rewrite before_app in U2. cbn in U2.
      now apply chain_inner in U2.
    + intros x lo a b ro y Q Hl Hr. pose proof (edit_at x a b y 0) as I. rewrite <- Q in I.
      destruct (M _ I) as (c & s' & _ & (_ & P' & U' & D') & I'). rewrite K in P', U'.
      assert (B' : diff_before s' = diff_before s).
      { apply (units_unique re_w KSymbol (CStr p)); [exact P'|]. split; [exact Up|]. now split. }
      destruct (split_edit s' _ 0 I') as (t1 & b' & t2 & Q' & E1 & E2). unfold e_ins, e_pos, e_len in *. cbn [fst snd] in *.
      destruct U' as [_ [_ U']]. apply (chain_spec (word re_w)) in U'. destruct D' as (N' & _).
      rewrite Q, Q', !before_app in B'. cbn in B'. fold (diff_before t2) in B'. fold (diff_before y) in B'.
      assert (B1 : diff_before t1 = diff_before x /\ b' ++ diff_before t2 = b ++ diff_before y) by (apply app_inj_len; [exact B'|lia]).
      destruct B1 as [B1 B2]. assert (B3 : b' = b /\ diff_before t2 = diff_before y) by (apply app_inj_len; [exact B2|lia]).
      destruct B3 as [-> B3]. rewrite Q' in N', U'. rewrite after_app in U'. cbn in U'. fold (diff_after t2) in U'.
      assert (L : exists A, diff_after t1 = A ++ lo).
      { destruct Hl as [->|(x0 & u & z & -> & ->)]; [exists (diff_after t1); now rewrite app_nil_r|].
        rewrite before_app in B1. cbn in B1. rewrite app_nil_r, app_assoc in B1.
        destruct (prev_text t1 a b t2 N') as (t & t0 & -> & Ht); [intros ->; cbn in B1; now apply app_cons_not_nil in B1|].
        destruct (exists_last Ht) as (t' & z' & ->). rewrite before_app in B1. cbn in B1. rewrite app_nil_r, app_assoc in B1.
        apply app_inj_tail in B1 as [_ ->]. rewrite after_app. cbn. rewrite app_nil_r, app_assoc. eauto. }
      assert (R : exists A, diff_after t2 = ro ++ A).
      { destruct Hr as [->|(w & v & y0 & Qy & ->)]; [cbn; eauto|]. rewrite Qy in B3.
        destruct (next_text t1 a b t2 N') as (t & t3 & -> & Ht); [intros ->; cbn in B3; discriminate B3|].
        destruct t as [|w' t]; [contradiction|]. cbn in B3. injection B3 as -> _. cbn. eauto. }
      destruct L as (A & L), R as (A' & R). rewrite L, R in U'. apply (chain_inner (word re_w) A (lo ++ a ++ ro) A').
      now rewrite <- !app_assoc in *.
Qed.
Theorem texts_any_order_all re_w o p bs : real_text p -> bs <> [] ->
  (forall b, In b bs -> exists s, edited re_w o p b s) ->
  (forall e e', edit_of re_w o p bs e -> edit_of re_w o p bs e' -> apart_edits e e') ->
  exists m s, edited re_w o p m s /\ (forall e, In e (edits 0 s) <-> edit_of re_w o p bs e) /\
  forall b0 rest, (forall b, In b (b0 :: rest) <-> In b bs) -> texts_in_turn re_w o p b0 rest = Some m.
Proof.
  intros R N H A. apply texts_any_order; auto. destruct (o_words o) eqn:W; [now apply settled_words|].
  destruct (o_lines o) eqn:L; [now apply settled_lines|now apply settled_characters].
Qed.
