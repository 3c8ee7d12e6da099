(** Merging several edited copies of one text, one after the other (C83). *)
From Coq Require Import Lia.
From Verif Require Import Base Changesets ChangesetsProofs SpecDiff Merge SpecMerge MergeUnion MergeProofs MergeLaws SpecEdits EditsProofs.
Local Open Scope nat_scope.

Section Order.
Context {T : Type} {E : Teq T} {O : TeqOk T}.
Implicit Types s : list (ditem T).

(** * Sorted lists of edits with a token between neighbours *)
Fixpoint gapped (n : nat) (es : list (edit T)) : Prop :=
  match es with [] => True | e :: es => n <= e_pos e /\ gapped (S (e_end e)) es end.
Lemma gapped_le m n es : m <= n -> gapped n es -> gapped m es.
Proof. destruct es; cbn; [auto|]. intros L [H1 H2]. split; [lia|exact H2]. Qed.
Lemma gapped_in n es e : gapped n es -> In e es -> n <= e_pos e.
Proof.
  revert n; induction es as [|x es IH]; intros n H I; [destruct I|]. cbn in H. destruct H as [H1 H2].
  destruct I as [<-|I]; [exact H1|]. specialize (IH _ H2 I). unfold e_end in IH. lia.
Qed.
Fixpoint put (e : edit T) (es : list (edit T)) : list (edit T) :=
  match es with
  | [] => [e]
  | x :: r => if e_pos e <? e_pos x then e :: es else if e_pos e =? e_pos x then es else x :: put e r
  end.
Lemma put_ok e es : forall n, gapped n es -> n <= e_pos e -> (forall x, In x es -> apart_edits e x) ->
  gapped n (put e es) /\ forall x, In x (put e es) <-> x = e \/ In x es.
Proof.
  induction es as [|x es IH]; intros n G L A; cbn [put].
  - split; [cbn; auto|]. intros y; cbn. intuition congruence.
  - cbn in G. destruct G as [G1 G2]. pose proof (A x (or_introl eq_refl)) as Ax. unfold apart_edits, e_end in Ax.
    destruct (Nat.ltb_spec (e_pos e) (e_pos x)) as [Lt|Ge].
    + split; [|intros y; cbn; intuition congruence]. cbn. split; [exact L|]. split; [|exact G2].
      destruct Ax as [<-|[Ax|Ax]]; unfold e_end; lia.
    + destruct (Nat.eqb_spec (e_pos e) (e_pos x)) as [Eq|Ne].
      * assert (e = x) as -> by (destruct Ax as [Ax|[Ax|Ax]]; [exact Ax|lia|lia]).
        split; [cbn; auto|]. intros y; cbn; intuition congruence.
      * destruct (IH (S (e_end x)) G2) as [IH1 IH2].
        { destruct Ax as [->|[Ax|Ax]]; unfold e_end in *; lia. }
        { intros y Y. apply A. now right. }
        split; [cbn; auto|]. intros y. cbn. rewrite IH2. intuition congruence.
Qed.
Definition puts (es1 es0 : list (edit T)) : list (edit T) := fold_right put es0 es1.
Lemma puts_ok es1 es0 : gapped 0 es0 -> gapped 0 es1 -> (forall x y, In x es1 -> In y es0 -> apart_edits x y) ->
  gapped 0 (puts es1 es0) /\ forall x, In x (puts es1 es0) <-> In x es1 \/ In x es0.
Proof.
  intros G0 G1 A. enough (H : forall n, gapped n es1 -> gapped 0 (puts es1 es0) /\ forall x, In x (puts es1 es0) <-> In x es1 \/ In x es0) by (apply (H 0 G1)).
  clear G1. induction es1 as [|e es1 IH]; intros n G1; cbn [puts fold_right].
  - split; [exact G0|]. intros x; cbn; tauto.
  - cbn in G1. destruct G1 as [G1 G2]. destruct (IH ltac:(intros; apply A; [now right|assumption]) _ G2) as [IH1 IH2].
    destruct (put_ok e (puts es1 es0) 0 IH1 ltac:(lia)) as [P1 P2].
    { intros x X. apply IH2 in X as [X|X]; [|apply A; [now left|exact X]].
      right; left. pose proof (gapped_in _ _ _ G2 X). lia. }
    split; [exact P1|]. intros x. fold (puts es1 es0) in *. rewrite P2, IH2. cbn. intuition congruence.
Qed.

(** * The script of such a list *)
Definition text (t : list T) : list (ditem T) := match t with [] => [] | _ => [DText t] end.
Fixpoint script (pos : nat) (p : list T) (es : list (edit T)) : list (ditem T) :=
  match es with
  | [] => text p
  | (i, a, n) :: r => text (firstn (i - pos) p) ++ DChange a (firstn n (skipn (i - pos) p)) ::
                      script (i + n) (skipn (i - pos + n) p) r
  end.
Lemma text_before t : diff_before (text t) = t. Proof. destruct t; [reflexivity|]. cbn. now rewrite app_nil_r. Qed.
Lemma text_ok t : Forall item_ok (text t). Proof. destruct t; [constructor|]. constructor; [discriminate|constructor]. Qed.
Lemma edits_text pos t s : edits pos (text t ++ s) = edits (pos + length t) s.
Proof. destruct t; cbn [text app length]; [now rewrite Nat.add_0_r|reflexivity]. Qed.

Lemma cut3 (p : list T) l n : p = firstn l p ++ firstn n (skipn l p) ++ skipn (l + n) p.
Proof. rewrite (Nat.add_comm l n), <- skipn_skipn, firstn_skipn, firstn_skipn. reflexivity. Qed.
Lemma script_before es : forall pos p, diff_before (script pos p es) = p.
Proof.
  induction es as [|[[i a] n] es IH]; intros pos p; cbn [script]; [apply text_before|].
  rewrite before_app', text_before. set (l := i - pos).
  change (diff_before (DChange a (firstn n (skipn l p)) :: script (i + n) (skipn (l + n) p) es)) with
    (firstn n (skipn l p) ++ diff_before (script (i + n) (skipn (l + n) p) es)). rewrite IH. symmetry. apply cut3.
Qed.
Definition within (n : nat) (es : list (edit T)) : Prop := forall e, In e es -> e_end e <= n.
Lemma script_edits es : forall pos p, gapped pos es -> within (pos + length p) es -> edits pos (script pos p es) = es.
Proof.
  induction es as [|[[i a] n] es IH]; intros pos p G W; cbn [script].
  - rewrite <- (app_nil_r (text p)), edits_text. reflexivity.
  - cbn in G. destruct G as [G1 G2]. pose proof (W _ (or_introl eq_refl)) as L. unfold e_end, e_pos, e_len in *; cbn in *.
    rewrite edits_text, firstn_length, Nat.min_l by lia. replace (pos + (i - pos)) with i by lia. cbn [edits].
    rewrite firstn_length, skipn_length, Nat.min_l by lia. f_equal. apply IH.
    + eapply gapped_le; [|exact G2]. lia.
    + intros e He. specialize (W e (or_intror He)). rewrite skipn_length. lia.
Qed.
Lemma alternating_cons (x y : ditem T) s : alternating (y :: s) ->
  (is_text x /\ is_change y) \/ (is_change x /\ is_text y) -> alternating (x :: y :: s).
Proof.
  intros A H [|k] u v U V; cbn in U, V.
  - injection U as <-. injection V as <-. exact H.
  - apply (A k u v U V).
Qed.
Lemma script_normal es : forall pos p, gapped pos es -> within (pos + length p) es ->
  (forall e, In e es -> ~ (e_ins e = [] /\ e_len e = 0) /\ disjoint (e_ins e) p) -> normal_diff (script pos p es) /\
  (gapped (S pos) es -> script pos p es = [] \/ exists t s, script pos p es = DText t :: s).
Proof.
  induction es as [|[[i a] n] es IH]; intros pos p G W D; cbn [script].
  - split; [|destruct p; [now left|right; eexists _, _; reflexivity]].
    split; [|apply text_ok]. destruct p; intros [|k] u v U V; discriminate.
  - cbn in G. destruct G as [G1 G2]. pose proof (W _ (or_introl eq_refl)) as L.
    destruct (D _ (or_introl eq_refl)) as [D1 D2]. unfold e_end, e_pos, e_len, e_ins in *; cbn in *. set (l := i - pos).
    destruct (IH (i + n) (skipn (l + n) p)) as [[A F] S].
    + eapply gapped_le; [|exact G2]. lia.
    + intros e He. specialize (W e (or_intror He)). rewrite skipn_length. subst l. lia.
    + intros e He. destruct (D e (or_intror He)) as [D3 D4]. split; [exact D3|]. intros x X Y. apply (D4 x X).
      rewrite (cut3 p l n). apply in_or_app; right; apply in_or_app; now right.
    + specialize (S G2). set (r := script (i + n) (skipn (l + n) p) es) in *.
      assert (Lm : length (firstn n (skipn l p)) = n) by (rewrite firstn_length, skipn_length; subst l; lia).
      assert (B : alternating (DChange a (firstn n (skipn l p)) :: r)).
      { destruct S as [->|(t & s & ->)].
        - intros [|k] u v U V; [discriminate|]. destruct k; discriminate.
        - apply alternating_cons; [exact A|]. right. split; unfold is_change, is_text; eauto. }
      assert (C : Forall item_ok (DChange a (firstn n (skipn l p)) :: r)).
      { constructor; [|exact F]. cbn. split.
        - intros [H1 H2]. apply D1. split; [exact H1|]. rewrite H2 in Lm. now cbn in Lm.
        - intros x X Y. apply (D2 x X). rewrite (cut3 p l n). apply in_or_app; right; apply in_or_app; now left. }
      split.
      * split; [|apply Forall_app; split; [apply text_ok|exact C]].
        destruct (firstn l p) as [|x t]; cbn [text app]; [exact B|]. apply alternating_cons; [exact B|].
        left. split; unfold is_change, is_text; eauto.
      * intros [H _]. right. destruct (firstn l p) as [|x t] eqn:Ef; [|eexists _, _; reflexivity].
        apply (f_equal (@length T)) in Ef. rewrite firstn_length in Ef. cbn in Ef. subst l. lia.
Qed.

(** * What the edits of a script say about it *)
Lemma edits_gapped s : forall pos, alternating s -> Forall item_ok s -> gapped pos (edits pos s) /\
  (match s with DChange _ _ :: _ => False | _ => True end -> gapped (S pos) (edits pos s)).
Proof.
  induction s as [|[t|a b] s IH]; intros pos A F; [cbn; auto| |]; inversion F as [|? ? F1 F2]; subst.
  - destruct (IH (pos + length t) (alternating_tl _ _ A) F2) as [I1 _]. cbn in F1.
    destruct t as [|x t]; [contradiction|]. cbn [length edits] in *.
    split; [|intros _]; (eapply gapped_le; [|exact I1]); lia.
  - destruct (IH (pos + length b) (alternating_tl _ _ A) F2) as [_ I2]. split; [|contradiction].
    cbn [edits gapped e_pos fst]. split; [lia|]. apply I2.
    destruct s as [|[t|a' b'] s]; auto. destruct (A 0 _ _ eq_refl eq_refl) as [[[t H] _]|[_ [t H]]]; discriminate.
Qed.
Lemma edits_within s : forall pos, within (pos + length (diff_before s)) (edits pos s).
Proof.
  induction s as [|[t|a b] s IH]; intros pos e H; [destruct H| |]; cbn [edits] in H; cbn [diff_before flat_map]; fold (diff_before s);
    rewrite app_length.
  - apply IH in H. lia.
  - destruct H as [<-|H]; [unfold e_end; cbn; lia|]. apply IH in H. lia.
Qed.
Lemma edits_busy s : forall pos, Forall item_ok s -> forall e : edit T, In e (edits pos s) -> ~ (e_ins e = [] /\ e_len e = 0).
Proof.
  induction s as [|[t|a b] s IH]; intros pos F e H; [destruct H| |]; inversion F as [|? ? F1 F2]; subst; cbn [edits] in H.
  - now apply (IH _ F2 _ H).
  - destruct H as [<-|H]; [|now apply (IH _ F2 _ H)]. cbn. intros [-> L]. destruct F1 as [F1 _]. apply F1.
    destruct b; [auto|discriminate].
Qed.
Lemma inserted_in s x : forall pos, In x (inserted s) <-> exists e : edit T, In e (edits pos s) /\ In x (e_ins e).
Proof.
  induction s as [|[t|a b] s IH]; intros pos; cbn [edits inserted flat_map].
  - split; [intros []|intros (e & [] & _)].
  - apply IH.
  - rewrite in_app_iff. fold (inserted s). rewrite (IH (pos + length b)). split.
    + intros [H|(e & H1 & H2)]; [exists (pos, a, length b); split; [now left|exact H]|exists e; split; [now right|exact H2]].
    + intros (e & [<-|H1] & H2); [now left|right; eauto].
Qed.
Lemma edits_from s : forall pos (e : edit T), In e (edits pos s) -> pos <= e_pos e.
Proof.
  induction s as [|[t|a b] s IH]; intros pos e H; [destruct H| |]; cbn [edits] in H.
  - apply IH in H. lia.
  - destruct H as [<-|H]; [cbn; lia|]. apply IH in H. lia.
Qed.
Lemma one_by_one (t r : list T) : forall pos,
  flat_map (fun i => firstn 1 (skipn (i - pos) (t ++ r))) (seq pos (length t)) = t.
Proof.
  induction t as [|x t IH]; intros pos; [reflexivity|]. cbn [length seq flat_map]. rewrite Nat.sub_diag. cbn [app skipn firstn]. f_equal.
  rewrite <- (IH (S pos)) at 2. rewrite !flat_map_concat_map. f_equal. apply map_ext_in. intros i H. apply in_seq in H.
  replace (i - pos) with (S (i - S pos)) by lia. reflexivity.
Qed.
Definition left_at (p : list T) (es : list (edit T)) (pos i : nat) : list T :=
  if removed es i then [] else firstn 1 (skipn (i - pos) p).
Lemma flat_map_in {A B} (f g : A -> list B) l : (forall x, In x l -> f x = g x) -> flat_map f l = flat_map g l.
Proof. intros H. rewrite !flat_map_concat_map. f_equal. now apply map_ext_in. Qed.
Lemma removed_step pos (a : list T) n q s i :
  removed ((pos, a, n) :: edits q s) i = (pos <=? i) && (i <? pos + n) || removed (edits q s) i.
Proof. reflexivity. Qed.
Lemma kept_at s : forall pos, kept s = flat_map (left_at (diff_before s) (edits pos s) pos) (seq pos (length (diff_before s))).
Proof.
  induction s as [|[t|a b] s IH]; intros pos; [reflexivity| |]; cbn [diff_before kept flat_map edits];
    fold (diff_before s); fold (kept s); rewrite app_length, seq_app, flat_map_app; unfold left_at in *.
  - f_equal.
    + rewrite <- (one_by_one t (diff_before s) pos) at 1. apply flat_map_in. intros i H. apply in_seq in H.
      rewrite (above_removed (pos + length t)); [reflexivity| |lia]. intros e He. now apply edits_from in He.
    + rewrite (IH (pos + length t)). apply flat_map_in. intros i H. apply in_seq in H.
      destruct (removed _ i); [reflexivity|]. rewrite skipn_app, (skipn_all2 t) by lia. cbn [app]. f_equal. f_equal. lia.
  - cbn [app]. match goal with |- _ = ?x ++ _ => assert (Z : x = []) end; [|rewrite Z; cbn [app]].
    + rewrite (flat_map_in _ (fun _ => [])); [induction (seq pos (length b)); [reflexivity|assumption]|].
      intros i H. apply in_seq in H. rewrite removed_step.
      replace (pos <=? i) with true by (symmetry; apply Nat.leb_le; lia).
      replace (i <? pos + length b) with true by (symmetry; apply Nat.ltb_lt; lia). reflexivity.
    + rewrite (IH (pos + length b)). apply flat_map_in. intros i H. apply in_seq in H. rewrite removed_step.
      replace (i <? pos + length b) with false by (symmetry; apply Nat.ltb_ge; lia). rewrite andb_false_r. cbn [orb].
      destruct (removed _ i); [reflexivity|]. rewrite skipn_app, (skipn_all2 b) by lia. cbn [app]. f_equal. f_equal. lia.
Qed.
Lemma taken_in s x : forall pos, In x (taken s) <->
  exists i, removed (edits pos s) i = true /\ pos <= i /\ nth_error (diff_before s) (i - pos) = Some x.
Proof.
  induction s as [|[t|a b] s IH]; intros pos; cbn [diff_before taken flat_map edits].
  - split; [intros []|]. intros (i & H & _). discriminate.
  - fold (diff_before s); fold (taken s). cbn [app]. rewrite (IH (pos + length t)). split.
    + intros (i & H1 & H2 & H3). exists i. split; [exact H1|]. split; [lia|]. rewrite nth_error_app2 by lia. rewrite <- H3. f_equal. lia.
    + intros (i & H1 & H2 & H3). destruct (Nat.ltb_spec i (pos + length t)) as [L|L].
      * rewrite (above_removed (pos + length t)) in H1; [discriminate| |exact L]. intros e He. now apply edits_from in He.
      * exists i. split; [exact H1|]. split; [lia|]. rewrite nth_error_app2 in H3 by lia. rewrite <- H3. f_equal. lia.
  - fold (diff_before s); fold (taken s). rewrite in_app_iff, (IH (pos + length b)). split.
    + intros [H|(i & H1 & H2 & H3)].
      * apply In_nth_error in H as [j H]. pose proof (proj1 (nth_error_Some b j) ltac:(congruence)) as L.
        exists (pos + j). split; [|split; [lia|replace (pos + j - pos) with j by lia; now rewrite nth_error_app1]].
        rewrite removed_step.
        replace (pos <=? pos + j) with true by (symmetry; apply Nat.leb_le; lia).
        replace (pos + j <? pos + length b) with true by (symmetry; apply Nat.ltb_lt; lia). reflexivity.
      * exists i. rewrite removed_step, H1, orb_true_r. split; [reflexivity|]. split; [lia|].
        rewrite nth_error_app2 by lia. rewrite <- H3. f_equal. lia.
    + intros (i & H1 & H2 & H3). destruct (Nat.ltb_spec i (pos + length b)) as [L|L].
      * left. rewrite nth_error_app1 in H3 by lia. now apply nth_error_In in H3.
      * right. exists i. rewrite removed_step in H1.
        replace (i <? pos + length b) with false in H1 by (symmetry; apply Nat.ltb_ge; lia). rewrite andb_false_r in H1.
        split; [exact H1|]. split; [lia|]. rewrite nth_error_app2 in H3 by lia. rewrite <- H3. f_equal. lia.
Qed.
Lemma after_union s : distinct_edits s -> diff_after s = union_text (diff_before s) (edits 0 s) (edits 0 s).
Proof.
  intros D. assert (C : compatible (edits 0 s) (edits 0 s)).
  { destruct D as ((A & F) & _). destruct (edits_gapped s 0 A F) as [G _]. revert G.
    generalize (edits 0 s). generalize 0. intros n es G e0 e1. revert n G. induction es as [|e es IH]; intros n G I0 I1; [destruct I0|].
    cbn in G. destruct G as [G1 G2]. unfold compatible_edits, e_end in *.
    destruct I0 as [<-|I0], I1 as [<-|I1]; [now left| | |now apply (IH _ G2)].
    - pose proof (gapped_in _ _ _ G2 I1). right; left. lia.
    - pose proof (gapped_in _ _ _ G2 I0). right; right; left. lia. }
  pose proof (merge_of_edits KTuple s s D D eq_refl C) as H. rewrite merge_same in H. now injection H.
Qed.

(** * One more branch *)
Lemma nodup_less {A B} (f g : A -> list B) l : (forall x, In x l -> g x = f x \/ g x = []) ->
  NoDup (flat_map f l) -> NoDup (flat_map g l) /\ incl (flat_map g l) (flat_map f l).
Proof.
  induction l as [|x l IH]; intros H N; [split; [constructor|intros ? []]|]. cbn [flat_map] in *.
  destruct (IH (fun y Y => H y (or_intror Y)) (NoDup_app_r _ _ N)) as [I1 I2].
  destruct (H x (or_introl eq_refl)) as [->| ->].
  - split; [|apply incl_app; [apply incl_appl, incl_refl|now apply incl_appr]].
    clear -N I1 I2. induction (f x) as [|y t IHt]; [exact I1|]. cbn in *. inversion N; subst. constructor; [|auto].
    intros I. apply H1. apply in_or_app. apply in_app_or in I as [I|I]; [now left|right; now apply I2].
  - cbn [app]. split; [exact I1|now apply incl_appr].
Qed.
Lemma list_teq_nil (x y : list T) : both_ins x [] = x /\ both_ins [] y = y.
Proof.
  unfold both_ins. split.
  - destruct (list_teq x []); [reflexivity|apply app_nil_r].
  - now destruct y.
Qed.
Lemma ins_at_gapped es : forall n, gapped n es -> forall e, In e es -> ins_at es (e_pos e) = e_ins e.
Proof.
  induction es as [|x es IH]; intros n G e I; [destruct I|]. cbn in G. destruct G as [G1 G2]. rewrite ins_at_cons.
  destruct I as [<-|I].
  - rewrite Nat.eqb_refl, (above_ins (S (e_end x))); [apply app_nil_r| |unfold e_end; lia].
    intros e He. now apply (gapped_in _ _ _ G2).
  - pose proof (gapped_in _ _ _ G2 I). destruct (Nat.eqb_spec (e_pos x) (e_pos e)); [unfold e_end in *; lia|]. cbn [app]. eauto.
Qed.
Lemma ins_at_none es (i : nat) : (forall e : edit T, In e es -> e_pos e <> i) -> ins_at es i = [].
Proof.
  induction es as [|x es IH]; intros H; [reflexivity|]. rewrite ins_at_cons.
  destruct (Nat.eqb_spec (e_pos x) i) as [Q|]; [now destruct (H x (or_introl eq_refl))|]. apply IH. intros; apply H; now right.
Qed.
Lemma at_dec (es : list (edit T)) i : (exists e, In e es /\ e_pos e = i) \/ (forall e, In e es -> e_pos e <> i).
Proof.
  induction es as [|x es IH]; [right; intros ? []|]. destruct (Nat.eq_dec (e_pos x) i) as [Q|Q]; [left; exists x; split; [now left|exact Q]|].
  destruct IH as [(e & H1 & H2)|H]; [left; exists e; split; [now right|exact H2]|]. right. intros e [<-|I]; auto.
Qed.
Lemma removed_in es (i : nat) : removed es i = true <-> exists e : edit T, In e es /\ e_pos e <= i < e_end e.
Proof.
  unfold removed. rewrite existsb_exists. split; intros (e & H1 & H2); exists e; (split; [exact H1|]).
  - apply andb_prop in H2 as [A B]. apply Nat.leb_le in A. apply Nat.ltb_lt in B. lia.
  - apply andb_true_intro. split; [apply Nat.leb_le|apply Nat.ltb_lt]; lia.
Qed.

Lemma one_more k s0 s1 : distinct_edits s0 -> distinct_edits s1 -> diff_before s0 = diff_before s1 ->
  (forall x y, In x (edits 0 s1) -> In y (edits 0 s0) -> apart_edits x y) ->
  exists s, distinct_edits s /\ diff_before s = diff_before s0 /\
    (forall e, In e (edits 0 s) <-> In e (edits 0 s0) \/ In e (edits 0 s1)) /\
    merge_token_sequence k (diff_before s0) (diff_after s0) (diff_after s1) = Ok [DText (diff_after s)].
Proof.
  intros D0 D1 Q A. pose proof D0 as ((A0 & F0) & N0 & I0 & R0). pose proof D1 as ((A1 & F1) & N1 & I1 & R1).
  destruct (edits_gapped s0 0 A0 F0) as [G0 _]. destruct (edits_gapped s1 0 A1 F1) as [G1 _].
  destruct (puts_ok (edits 0 s1) (edits 0 s0) G0 G1 A) as [G M].
  set (es := puts (edits 0 s1) (edits 0 s0)) in *. set (p := diff_before s0) in *. set (s := script 0 p es).
  assert (W : within (0 + length p) es).
  { intros e H. apply M in H as [H|H]; [rewrite Q|]; now apply edits_within in H. }
  assert (Ed : edits 0 s = es) by (now apply script_edits).
  assert (B : diff_before s = p) by apply script_before.
  assert (Rm : forall i, removed es i = removed (edits 0 s0) i || removed (edits 0 s1) i).
  { intros i. apply eq_true_iff_eq. rewrite orb_true_iff, !removed_in. split.
    - intros (e & H1 & H2). apply M in H1 as [H1|H1]; [right|left]; eauto.
    - intros [(e & H1 & H2)|(e & H1 & H2)]; exists e; (split; [apply M; auto|exact H2]). }
  assert (In' : forall i, ins_at es i = both_ins (ins_at (edits 0 s0) i) (ins_at (edits 0 s1) i)).
  { intros i. destruct (at_dec (edits 0 s0) i) as [(e0 & H1 & H2)|H0], (at_dec (edits 0 s1) i) as [(e1 & H3 & H4)|H1'].
    - assert (e1 = e0) as ->.
      { destruct (A e1 e0 H3 H1) as [H|[H|H]]; [exact H|unfold e_end in H; lia|unfold e_end in H; lia]. }
      subst i. rewrite (ins_at_gapped es 0 G e0) by (apply M; auto). rewrite (ins_at_gapped _ 0 G0 e0 H1), (ins_at_gapped _ 0 G1 e0 H3).
      unfold both_ins. now rewrite list_teq_refl.
    - subst i. rewrite (ins_at_gapped es 0 G e0) by (apply M; auto). rewrite (ins_at_gapped _ 0 G0 e0 H1), (ins_at_none _ _ H1').
      symmetry. apply (list_teq_nil (e_ins e0) []).
    - subst i. rewrite (ins_at_gapped es 0 G e1) by (apply M; auto). rewrite (ins_at_gapped _ 0 G1 e1 H3), (ins_at_none _ _ H0).
      symmetry. apply (list_teq_nil [] (e_ins e1)).
    - rewrite (ins_at_none _ _ H0), (ins_at_none _ _ H1'), (ins_at_none es); [now rewrite (proj1 (list_teq_nil [] []))|].
      intros e H. apply M in H as [H|H]; auto. }
  assert (Ins : forall x, In x (inserted s) -> ~ In x p).
  { intros x H X. apply (inserted_in s x 0) in H as (e & H1 & H2). rewrite Ed in H1. apply M in H1 as [H1|H1].
    - apply (I1 x); [apply (inserted_in s1 x 0); eauto|rewrite <- Q; exact X].
    - apply (I0 x); [apply (inserted_in s0 x 0); eauto|exact X]. }
  assert (K : NoDup (kept s) /\ incl (kept s) (kept s0)).
  { rewrite (kept_at s 0), (kept_at s0 0), B. fold p. apply nodup_less; [|unfold p; rewrite <- (kept_at s0 0); exact N0].
    intros i _. unfold left_at. rewrite Ed, Rm. destruct (removed (edits 0 s0) i); [now left|]. cbn [orb].
    destruct (removed (edits 0 s1) i); [now right|now left]. }
  assert (K1 : incl (kept s) (kept s1)).
  { rewrite (kept_at s 0), (kept_at s1 0), B, <- Q. fold p. apply (nodup_less (left_at p (edits 0 s1) 0)).
    - intros i _. unfold left_at. rewrite Ed, Rm. destruct (removed (edits 0 s1) i); [left; now rewrite orb_true_r|]. rewrite orb_false_r.
      destruct (removed (edits 0 s0) i); [now right|now left].
    - rewrite Q, <- (kept_at s1 0). exact N1. }
  assert (D : distinct_edits s).
  { split; [|split; [apply K|split]].
    - apply script_normal; auto. intros e H. apply M in H. split.
      + destruct H as [H|H]; [exact (edits_busy _ _ F1 _ H)|exact (edits_busy _ _ F0 _ H)].
      + intros x X. apply Ins. apply (inserted_in s x 0). exists e. rewrite Ed. split; [apply M; exact H|exact X].
    - intros x X Y. rewrite B in Y. now apply (Ins x).
    - intros x X Y. assert (P : In x p) by (rewrite <- B; now apply taken_before).
      apply after_cases in Y as [Y|Y]; [|now apply (Ins x)].
      apply (taken_in s x 0) in X as (i & X1 & X2 & X3). rewrite Ed, Rm in X1. rewrite B in X3.
      apply orb_prop in X1 as [X1|X1].
      + apply (R0 x); [apply (taken_in s0 x 0); eauto|apply kept_after, (proj2 K), Y].
      + apply (R1 x); [apply (taken_in s1 x 0); exists i; rewrite <- Q; auto|apply kept_after, K1, Y]. }
  exists s. split; [exact D|]. split; [exact B|]. split; [intros e; rewrite Ed, M; tauto|].
  unfold p; rewrite (merge_of_edits k s0 s1 D0 D1 Q); fold p.
  - do 3 f_equal. rewrite (after_union s D), B, Ed. unfold union_text, union_from. apply flat_map_in. intros i _.
    rewrite In', Rm, orb_diag. f_equal. unfold both_ins at 2.
    now rewrite list_teq_refl.
  - intros e0 e1 H0 H1. destruct (A e1 e0 H1 H0) as [->|[H|H]]; [now left| |]; unfold compatible_edits, e_end in *; lia.
Qed.

Lemma gapped_unique (l l' : list (edit T)) : forall n n', gapped n l -> gapped n' l' -> (forall e, In e l <-> In e l') -> l = l'.
Proof.
  revert l'; induction l as [|e l IH]; intros [|e' l'] n n' G G' H; [reflexivity| | |].
  - destruct (proj2 (H e') (or_introl eq_refl)).
  - destruct (proj1 (H e) (or_introl eq_refl)).
  - cbn in G, G'. destruct G as [_ G], G' as [_ G'].
    assert (e = e') as <-.
    { destruct (proj1 (H e) (or_introl eq_refl)) as [I|I]; [now symmetry|].
      destruct (proj2 (H e') (or_introl eq_refl)) as [J|J]; [exact J|].
      pose proof (gapped_in _ _ _ G' I). pose proof (gapped_in _ _ _ G J). unfold e_end in *. lia. }
    f_equal. apply (IH l' _ _ G G'). intros x. specialize (H x). cbn in H. split; intros I.
    + destruct (proj1 H (or_intror I)) as [<-|J]; [|exact J]. pose proof (gapped_in _ _ _ G I). unfold e_end in *. lia.
    + destruct (proj2 H (or_intror I)) as [<-|J]; [|exact J]. pose proof (gapped_in _ _ _ G' I). unfold e_end in *. lia.
Qed.
Lemma same_edits s s' : distinct_edits s -> distinct_edits s' -> diff_before s = diff_before s' ->
  (forall e, In e (edits 0 s) <-> In e (edits 0 s')) -> diff_after s = diff_after s'.
Proof.
  intros D D' B H. rewrite (after_union s D), (after_union s' D'), B.
  destruct D as ((A & F) & _), D' as ((A' & F') & _).
  now rewrite (gapped_unique _ _ 0 0 (proj1 (edits_gapped s 0 A F)) (proj1 (edits_gapped s' 0 A' F')) H).
Qed.
Lemma turn_by_turn k p rest : forall s0,
  (forall s, In s (s0 :: rest) -> distinct_edits s /\ diff_before s = p) ->
  (forall s s' e e', In s (s0 :: rest) -> In s' (s0 :: rest) -> In e (edits 0 s) -> In e' (edits 0 s') -> apart_edits e e') ->
  exists s, distinct_edits s /\ diff_before s = p /\
    (forall e, In e (edits 0 s) <-> exists s', In s' (s0 :: rest) /\ In e (edits 0 s')) /\
    merge_in_turn k p (diff_after s0) (map diff_after rest) = Some (diff_after s).
Proof.
  induction rest as [|s1 rest IH]; intros s0 D A.
  - destruct (D s0 (or_introl eq_refl)) as [D0 B0]. exists s0. split; [exact D0|]. split; [exact B0|]. split; [|reflexivity].
    intros e. split; [intros H; exists s0; split; [now left|exact H]|]. intros (s' & [<-|[]] & H). exact H.
  - destruct (D s0 (or_introl eq_refl)) as [D0 B0]. destruct (D s1 (or_intror (or_introl eq_refl))) as [D1 B1].
    destruct (one_more k s0 s1 D0 D1) as (s & Ds & Bs & Es & Ms).
    + congruence.
    + intros x y X Y. apply (A s1 s0); auto; [right; now left|now left].
    + assert (Ex : forall s' e, In s' (s :: rest) -> In e (edits 0 s') -> exists s'', In s'' (s0 :: s1 :: rest) /\ In e (edits 0 s'')).
      { intros s' e [<-|I] H; [|exists s'; split; [right; now right|exact H]].
        apply Es in H as [H|H]; [exists s0; split; [now left|exact H]|exists s1; split; [right; now left|exact H]]. }
      destruct (IH s) as (r & Dr & Br & Er & Mr).
      * intros s' [<-|I]; [split; [exact Ds|congruence]|]. apply D. right; now right.
      * intros s' s'' e e' I I' H H'. destruct (Ex _ _ I H) as (u & U1 & U2). destruct (Ex _ _ I' H') as (v & V1 & V2).
        now apply (A u v).
      * exists r. split; [exact Dr|]. split; [exact Br|]. split.
        -- intros e. rewrite Er. split; [intros (s' & I & H); now apply (Ex s')|].
           intros (s' & [<-|[<-|I]] & H).
           ++ exists s. split; [now left|]. apply Es; now left.
           ++ exists s. split; [now left|]. apply Es; now right.
           ++ exists s'. split; [now right|exact H].
        -- cbn [map merge_in_turn]. rewrite <- B0, Ms, B0. exact Mr.
Qed.
Theorem any_order k p ss : ss <> [] -> (forall s, In s ss -> distinct_edits s /\ diff_before s = p) ->
  (forall s s' e e', In s ss -> In s' ss -> In e (edits 0 s) -> In e' (edits 0 s') -> apart_edits e e') ->
  exists s, distinct_edits s /\ diff_before s = p /\
    (forall e, In e (edits 0 s) <-> exists s', In s' ss /\ In e (edits 0 s')) /\
    forall s0 rest, (forall s', In s' (s0 :: rest) <-> In s' ss) ->
      merge_in_turn k p (diff_after s0) (map diff_after rest) = Some (diff_after s).
Proof.
  intros N D A. destruct ss as [|s1 ss]; [contradiction|].
  destruct (turn_by_turn k p ss s1 D A) as (s & Ds & Bs & Es & _).
  exists s. split; [exact Ds|]. split; [exact Bs|]. split; [exact Es|]. intros s0 rest H.
  destruct (turn_by_turn k p rest s0) as (r & Dr & Br & Er & Mr).
  - intros s' I. apply D, H, I.
  - intros s' s'' e e' I I'. apply A; apply H; assumption.
  - rewrite Mr. f_equal. apply same_edits; auto; [congruence|]. intros e. rewrite Er, Es.
    split; intros (s' & I & J); exists s'; (split; [apply H, I|exact J]).
Qed.
End Order.
