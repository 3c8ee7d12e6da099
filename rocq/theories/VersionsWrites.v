(** How often the diff of a version is written (C121). *)
From Coq Require Import ZArith Lia Permutation.
From Verif Require Import Base Changesets Serialize Tokenizers SpecTokenizers Tree SpecTree TreeProofs TreeExact
  Versions SpecVersions SpecLine VersionsInv VersionsProofs TreeComb TreeShape TreeRake SpecWays WaysNumbers TreeWays
  DbTree DbTreeProofs SpecDb DbVersions VersionsShape VersionsWays SpecWrites.
Local Open Scope nat_scope.

(** * Numbers *)
Lemma hangs_three i : exists l, length l <= 3 /\ forall m j, hangs m i j -> In j l.
Proof.
  destruct (block_exists i) as [k [A B]]. destruct (le_lt_dec (k * k) i) as [G|G].
  - exists [i + k + 1; i + 1]. split; [cbn; lia|]. intros m j (L & b & A' & B' & H). blocks b k; cbn; lia.
  - exists [i + 1; i + k; i + 2 * k]. split; [cbn; lia|]. intros m j (L & b & A' & B' & H). blocks b k; cbn; lia.
Qed.
Lemma moves_exists m : 0 < m -> exists y, moves m y.
Proof.
  intros M. destruct (block_exists m) as [k [A B]]. destruct (le_lt_dec (k * k) m) as [G|G].
  - exists (m - k), k. left. destruct k; lia.
  - destruct k as [|k]; [lia|]. destruct (Nat.eq_dec m (k * k + 2 * k)) as [Q|Q].
    + exists (m - k - 1), k. right; right. assert (0 < k) by (destruct k; lia). nia.
    + exists (m - 2 * k), k. right; left. nia.
Qed.

(** * The log *)
Section Log.
Context {K : Type} {E : Teq K} {O : TeqOk K}.
Definition logged_law {S : store K} (L : store_law S) : store_law (logged S).
Proof.
  refine (@Build_store_law K E (logged S) (fun d k => view L (snd d) k) (fun d => fine L (snd d)) _ _ _ _ _ _ _);
    cbn [logged store_t s_empty s_get s_set s_del s_mem snd fst].
  - apply (fine_empty _ L).
  - intros d k b; apply (fine_set _ L).
  - apply (view_empty _ L).
  - intros d k; apply (view_get _ L).
  - intros d k b u; apply (view_set _ L).
  - intros d k Hf Hv. destruct (view_del _ L _ k Hf Hv) as [d' [Hd [Hf' Hu]]]. exists (fst d, d'). rewrite Hd. auto.
  - intros d k; apply (view_mem _ L).
Defined.

Variable re_w : Z -> bool.
Variable tk : tkind.
Variables HS DS : store K.
Variable TR : tree_impl K.
Notation LS := (logged DS).
Notation vstate := (@vstate K HS LS TR).
Definition log_of (v : vstate) : list K := fst (diffs v).

(** what an action that succeeds has written *)
Definition logs {A} (l : list K) (c : vm HS LS TR A) : Prop := forall v tr v' a,
  c v = (tr, (v', Ok a)) -> log_of v' = l ++ log_of v.
Lemma logs_ret {A} (a : A) : logs [] (vret HS LS TR a).
Proof. intros v tr v' a' [= <- <- <-]; reflexivity. Qed.
Lemma logs_look {A} (f : vstate -> res A) : logs [] (look HS LS TR f).
Proof. intros v tr v' a' [= <- <- _]; reflexivity. Qed.
Lemma logs_bind {A B} l l' (c : vm HS LS TR A) (f : A -> vm HS LS TR B) :
  logs l c -> (forall a, logs l' (f a)) -> logs (l' ++ l) (vbind HS LS TR c f).
Proof.
  intros H1 H2 v tr v' b. unfold vbind. destruct (c v) as [t1 [v1 [a|e]]] eqn:Hc; [|discriminate].
  destruct (f a v1) as [t2 [v2 r]] eqn:Hf. intros [= <- <- ->].
  rewrite (H2 a v1 t2 v2 b Hf), (H1 v t1 v1 a Hc). now rewrite app_assoc.
Qed.
Lemma logs_tree f : logs [] (on_tree HS LS TR f).
Proof. intros v tr v' a. unfold on_tree; destruct (f (tree v)); intros [= <- <- _]; reflexivity. Qed.
Lemma logs_set_diff k b : logs [k] (set_diff HS LS TR k b).
Proof. intros v tr v' a [= <- <- _]; reflexivity. Qed.
Lemma logs_set_head k b : logs [] (set_head HS LS TR k b).
Proof. intros v tr v' a [= <- <- _]; reflexivity. Qed.
Lemma logs_del_head k : logs [] (del_head HS LS TR k).
Proof. intros v tr v' a. unfold del_head. destruct (s_del HS k (heads v)); intros [= <- <- _]; reflexivity. Qed.
Lemma logs_edge p c cs : logs [c] (add_edge HS LS TR p c cs).
Proof.
  unfold add_edge. apply (logs_bind [] [c]); [apply logs_look|intros d].
  apply (logs_bind [c] []); [apply logs_set_diff|intros _].
  apply (logs_bind [] []); [apply logs_tree|intros _].
  apply (logs_bind [] []); [apply logs_look|intros []]; [apply logs_del_head|apply logs_ret].
Qed.
Lemma add_logs tag b h v tr v' : add re_w tk HS LS TR tag b (Some h) v = (tr, (v', Ok tt)) ->
  exists sp p, tr_get_split TR (fst (tr_add TR tag (Some h) (tree v))) h = Ok (sp, p) /\
    log_of v' = h :: (if teq sp h then [] else [sp]) ++ log_of v.
Proof.
  unfold add. unfold vbind at 1. cbn [set_head]. unfold vbind at 1. unfold on_tree at 1. cbn [tree heads diffs].
  destruct (tr_add TR tag (Some h) (tree v)) as [t1 [[]|e]]; [|discriminate]. cbn [fst].
  unfold vbind at 1. cbn [look tree]. destruct (tr_get_split TR t1 h) as [[sp p]|e]; [|discriminate]. cbn [fst snd].
  set (v2 := mkV _ _ _).
  match goal with |- context [vbind HS LS TR (if teq sp h then ?c1 else ?c2) ?f v2] => set (c := vbind HS LS TR (if teq sp h then c1 else c2) f) end.
  assert (L : logs ([h] ++ (if teq sp h then [] else [sp])) c).
  { apply logs_bind.
    - destruct (teq sp h); [apply logs_ret|].
      apply (logs_bind [] [sp]); [apply logs_look|intros sv].
      apply (logs_bind [] [sp]); [apply logs_look|intros cs].
      apply (logs_bind [sp] []); [apply logs_edge|intros _]. apply logs_tree.
    - intros _. apply (logs_bind [] [h]); [apply logs_look|intros sv].
      apply (logs_bind [] [h]); [apply logs_look|intros cs]. apply logs_edge. }
  destruct (c v2) as [t2 [v3 r]] eqn:Hc. intros [= _ <- ->]. exists sp, p. split; [reflexivity|].
  rewrite (L _ _ _ _ Hc), <- app_assoc. reflexivity.
Qed.

(** an action that leaves no trace has written nothing *)
Definition few {A} (c : vm HS LS TR A) : Prop := forall v, length (fst (c v)) = 0 -> log_of (fst (snd (c v))) = log_of v.
Lemma few_look {A} (f : vstate -> res A) : few (look HS LS TR f).
Proof. intros v _; reflexivity. Qed.
Lemma few_bind {A B} (c : vm HS LS TR A) (f : A -> vm HS LS TR B) : few c -> (forall a, few (f a)) -> few (vbind HS LS TR c f).
Proof.
  intros H1 H2 v. unfold vbind. specialize (H1 v). destruct (c v) as [t1 [v1 [a|e]]]; cbn [fst snd] in *; [|auto].
  specialize (H2 a v1). destruct (f a v1) as [t2 r]; cbn [fst snd] in *. rewrite app_length. intros Q.
  rewrite H2 by lia. apply H1; lia.
Qed.
Lemma few_tree f : few (on_tree HS LS TR f).
Proof. intros v; unfold on_tree; destruct (f (tree v)); cbn; discriminate. Qed.
Lemma few_set_diff k b : few (set_diff HS LS TR k b).
Proof. intros v; cbn; discriminate. Qed.
Lemma few_edge p c cs : few (add_edge HS LS TR p c cs).
Proof.
  unfold add_edge. apply few_bind; [apply few_look|intros d].
  apply few_bind; [apply few_set_diff|intros _]. apply few_bind; [apply few_tree|intros _].
  apply few_bind; [apply few_look|intros []]; [|intros v _; reflexivity].
  intros v. unfold del_head. destruct (s_del HS c (heads v)); cbn; discriminate.
Qed.
Lemma add_few tag b base v v1 v2 v' r : add re_w tk HS LS TR tag b base v = ([v1; v2], (v', r)) -> log_of v' = log_of v.
Proof.
  unfold add. unfold vbind at 1. cbn [set_head]. unfold vbind at 1. unfold on_tree at 1. cbn [tree heads diffs].
  destruct (tr_add TR tag base (tree v)) as [t1 [[]|e]]; [|intros [= _ _ <- _]; reflexivity].
  set (w := mkV _ _ t1).
  match goal with |- context [match ?b with Some _ => _ | None => _ end w] =>
    match goal with |- context [let '(_, _) := ?c w in _] => set (q := c) end end.
  assert (F : few q).
  { unfold q. destruct base as [h|]; [|intros u _; reflexivity].
    apply few_bind; [apply few_look|intros sp]. apply few_bind.
    - destruct (teq (fst sp) h); [intros u _; reflexivity|].
      apply few_bind; [apply few_look|intros sv]. apply few_bind; [apply few_look|intros cs].
      apply few_bind; [apply few_edge|intros _]. apply few_tree.
    - intros _. apply few_bind; [apply few_look|intros sv]. apply few_bind; [apply few_look|intros cs]. apply few_edge. }
  specialize (F w). destruct (q w) as [t2 [v3 r3]]; cbn [fst snd] in *. intros Q.
  pose proof (f_equal (fun z => length (fst z)) Q) as Q1. pose proof (f_equal (fun z => fst (snd z)) Q) as Q2.
  cbn [fst snd length app] in Q1, Q2. subst v3. rewrite F; [reflexivity|lia].
Qed.
End Log.

Section H.
Context {K : Type} {E : Teq K} {O : TeqOk K}.
Variable re_w : Z -> bool.
Variable tk : tkind.
Variables HS DS : store K.
Variable TR : tree_impl K.
Variable HL : store_law HS.
Variable DL : store_law DS.
Variable TL : tree_law TR.
Context {TX : Exact TL}.
Notation LS := (logged DS).
Notation LL := (logged_law DL).
Notation run := (run re_w tk HS LS TR).
Notation hist_inv := (hist_inv re_w tk HS LS TR HL LL TL).
Notation log_of := (log_of HS DS TR).

Lemma split_way_before s tag base : dget s tag = None ->
  forall d t p, split_way (fst (m_add tag base s)) d t p -> t <> tag -> split_way s d t p.
Proof.
  intros Ntag. set (s2 := fst (m_add tag base s)).
  assert (G : forall t, dget s2 t = if teq tag t then Some (mkNode (length s) None [] 1 1 base) else dget s t).
  { intros t. unfold s2, m_add; cbn [fst]. apply dget_dset. }
  assert (G2 : forall u, u <> tag -> dget s2 u = dget s u) by (intros u Hu; rewrite G; destruct (teq_spec tag u); congruence).
  assert (G1 : forall n, dget s2 tag = Some n -> parent n = None) by (intros n; rewrite G, teq_refl; intros [= <-]; reflexivity).
  induction 1 as [d t0 n Hn Hd|d t0 n c p0 Hn Hd Bc Hw IH]; intros Ht0.
  - eapply way_stop; [rewrite <- G2; eauto|exact Hd].
  - destruct Bc as [nc [Hc [Hp Hmax]]].
    assert (Hct : c <> tag) by (intros ->; apply G1 in Hc; congruence).
    eapply way_go with (n := n) (c := c); [rewrite <- G2; auto|exact Hd| |now apply IH].
    exists nc; split; [rewrite <- G2; auto|]. split; [exact Hp|].
    intros c' n' Hc' Hp'. apply Hmax with c'; [|exact Hp'].
    rewrite G2; [exact Hc'|]. intros ->. congruence.
Qed.

Lemma step_logs h s (a : adding K) : tk <> KLine -> fresh tk (h ++ [a]) -> hist_inv h (run v_empty h) s ->
  (match base_of a with None => True | Some x => ~ is_head h x end -> log_of (run v_empty (h ++ [a])) = log_of (run v_empty h)) /\
  (forall x, base_of a = Some x -> is_head h x -> exists p, split_way s 1 x p /\
     log_of (run v_empty (h ++ [a])) = x :: (if teq (last p x) x then [] else [last p x]) ++ log_of (run v_empty h)).
Proof.
  intros Hk F I. destruct (fresh_snoc _ _ _ F) as [F' [Hna [Hb Sb]]]. rewrite run_snoc.
  destruct a as [[tag b] base]. cbn [tag_of bytes_of base_of fst snd] in *.
  pose proof (h_core _ _ _ _ _ _ _ _ _ _ _ I) as C. pose proof (h_tidy _ _ _ _ _ _ _ _ _ _ _ I) as T.
  pose proof (proj2 (V_of_none h tag) Hna) as Hv. cbn [add_state].
  split.
  - intros Hx. destruct base as [x|].
    + assert (Vn : view HL (heads (run v_empty h)) x = None).
      { destruct (view HL (heads (run v_empty h)) x) eqn:Q; [|reflexivity]. exfalso; apply Hx.
        apply (heads_view re_w tk HS LS TR HL LL TL _ _ _ x I). congruence. }
      destruct (add_rejected re_w tk HS LS TR HL LL TL (V_of h) _ s tag b x C T Hv Sb ltac:(congruence) Vn) as [v1 [v2 [e [Ha _]]]].
      rewrite Ha. cbn [fst snd]. exact (add_few _ _ _ _ _ _ _ _ _ _ _ _ _ Ha).
    + destruct (add_none re_w tk HS LS TR HL LL TL (V_of h) _ s tag b C T Hv Sb) as [v1 [v2 [Ha _]]].
      rewrite Ha. cbn [fst snd]. exact (add_few _ _ _ _ _ _ _ _ _ _ _ _ _ Ha).
  - intros x -> Hx. 
    destruct (add_accepted re_w tk HS LS TR HL LL TL (V_of h) _ s tag b x C T Hv Sb) as [tr [v' [s' [Ha _]]]].
    { now apply (heads_view re_w tk HS LS TR HL LL TL h _ s). } { now left. }
    rewrite Ha. cbn [fst snd]. destruct (add_logs _ _ _ _ _ _ _ _ _ _ _ Ha) as [sp [p [Hs Hl]]].
    assert (Ntag : dget s tag = None) by (now apply (known_added re_w tk HS LS TR HL LL TL _ _ _ _ I)).
    destruct (dget s x) as [n|] eqn:Hn.
    2: { apply (known_added re_w tk HS LS TR HL LL TL _ _ _ _ I) in Hn. apply is_head_added in Hx. contradiction. }
    destruct (rep_add _ TL _ s tag (Some x) (c_rep _ _ _ _ _ _ _ _ _ _ _ _ C) Ntag) as [t' [Hadd R]].
    rewrite Hadd in Hs. cbn [fst] in Hs.
    destruct (rep_way _ TL t' (fst (m_add tag (Some x) s)) x n R) as [p' [Hs' Hw]].
    { unfold m_add; cbn [fst]. rewrite dget_dset. destruct (teq_spec tag x); congruence. }
    rewrite Hs in Hs'. injection Hs' as -> ->. exists p'. split; [|exact Hl].
    apply (split_way_before s tag (Some x) Ntag _ _ _ Hw). congruence.
Qed.


Lemma line_disjoint h s x y lx ly t : fresh tk h -> hist_inv h (run v_empty h) s -> shaped h s ->
  is_head h x -> is_head h y -> line h x lx -> line h y ly -> In t lx -> In t ly -> x = y.
Proof.
  intros F I Cb Hx Hy Lx Ly Tx Ty.
  pose proof (c_rep _ _ _ _ _ _ _ _ _ _ _ _ (h_core _ _ _ _ _ _ _ _ _ _ _ I)) as R.
  pose proof (rep_ok _ TL _ _ R) as T.
  assert (B : forall x lx, is_head h x -> line h x lx -> In t lx -> exists n, dget s x = Some n /\ parent n = None /\ below s x t).
  { clear x y lx ly Hx Hy Lx Ly Tx Ty. intros x lx Hx Lx Tx. destruct (dget s x) as [n|] eqn:Hn.
    2: { apply (known_added re_w tk HS LS TR HL LL TL _ _ _ _ I) in Hn. apply is_head_added in Hx. contradiction. }
    assert (Hp : parent n = None) by (now apply (h_head _ _ _ _ _ _ _ _ _ _ _ I x n)).
    destruct (Cb x n Hn Hp) as [l [ls [Rl [Fx [Ln [P _]]]]]].
    assert (ls = lx) by (apply (line_unique h x); [apply F|assumption|assumption]). subst ls.
    exists n. split; [reflexivity|split; [exact Hp|]].
    apply (rake_below s l Rl l [] x eq_refl Fx t). now apply (Permutation_in t (Permutation_sym P)). }
  destruct (B x lx Hx Lx Tx) as [nx [Nx [Px Bx]]]. destruct (B y ly Hy Ly Ty) as [ny [Ny [Py By]]].
  assert (Kt : dget s t <> None) by (destruct Bx as [p [Dp <-]]; exact (down_last_in _ _ _ Dp)).
  destruct (proj1 (tree_ok_exact s T) t Kt) as [u Hu].
  pose proof (root_of_below s x nx t u Nx Px Bx Hu). pose proof (root_of_below s y ny t u Ny Py By Hu). congruence.
Qed.

Lemma numbers_in ls i (t : K) : numbers ls i t -> In t ls.
Proof. intros H. apply in_rev. exact (nth_error_In _ _ H). Qed.
Lemma numbers_lt ls i (t : K) : numbers ls i t -> i < length ls.
Proof. intros H. rewrite <- rev_length. apply nth_error_Some. unfold numbers in H. congruence. Qed.
Lemma numbers_inj ls i j (t : K) : NoDup ls -> numbers ls i t -> numbers ls j t -> i = j.
Proof.
  intros N A B. apply NoDup_rev in N. apply (proj1 (NoDup_nth_error _) N); [|unfold numbers in *; congruence].
  apply nth_error_Some. unfold numbers in A; congruence.
Qed.
Lemma numbers_cons ls i (a t : K) : numbers (a :: ls) i t <-> numbers ls i t \/ i = length ls /\ t = a.
Proof.
  unfold numbers. cbn [rev]. split.
  - intros H. destruct (le_lt_dec (length ls) i) as [L|L].
    + rewrite nth_error_app2 in H by (rewrite rev_length; lia). rewrite rev_length in H.
      destruct (i - length ls) as [|d] eqn:D; [|destruct d; discriminate]. injection H as <-. right; split; [lia|reflexivity].
    + left. rewrite nth_error_app1 in H by (rewrite rev_length; lia). exact H.
  - intros [H|[-> ->]].
    + rewrite nth_error_app1; [exact H|]. apply nth_error_Some. congruence.
    + rewrite nth_error_app2, rev_length, Nat.sub_diag by (rewrite rev_length; lia). reflexivity.
Qed.
Lemma numbers_last ls (x : K) : hd_error ls = Some x -> numbers ls (length ls - 1) x.
Proof. destruct ls as [|y ls]; [discriminate|]. intros [= ->]. apply numbers_cons. right. cbn [length]. split; [lia|reflexivity]. Qed.

Theorem writes_exact h : tk <> KLine -> fresh tk h ->
  (forall t, ~ added h t -> times t (log_of (run v_empty h)) = 0) /\
  (forall x ls i t, is_head h x -> line h x ls -> numbers ls i t -> exists js,
     write_list (length ls) i js /\ times t (log_of (run v_empty h)) = length js).
Proof.
  intros Hk. induction h as [|a h IH] using rev_ind; intros F.
  - split; [reflexivity|]. intros x ls i t [pre [b [base [post [He _]]]]]. destruct pre; discriminate.
  - destruct (fresh_snoc _ _ _ F) as [F' [Hna [Hb _]]]. destruct (IH F') as [IH1 IH2]. clear IH.
    destruct (hist_shaped re_w tk HS LS TR HL LL TL h Hk F') as [s [I Cb]].
    pose proof (rep_ok _ TL _ _ (c_rep _ _ _ _ _ _ _ _ _ _ _ _ (h_core _ _ _ _ _ _ _ _ _ _ _ I))) as T.
    assert (Old : forall t, ~ added (h ++ [a]) t -> ~ added h t).
    { intros t Hn Hc; apply Hn. unfold added in *. rewrite map_app, in_app_iff. now left. }
    assert (Line : forall r, is_head h r -> exists n l ls, dget s r = Some n /\ parent n = None /\ raked s l /\ first_of l = Some r /\
              line h r ls /\ Permutation (rtags l) ls /\ phase (length ls) (lens l) /\ (exists k, map fst l = firstn k ls) /\ hung s ls).
    { intros r Hr. destruct (dget s r) as [n|] eqn:Hn.
      2: { apply (known_added re_w tk HS LS TR HL LL TL _ _ _ _ I) in Hn. apply is_head_added in Hr. contradiction. }
      assert (Hp : parent n = None) by (now apply (h_head _ _ _ _ _ _ _ _ _ _ _ I r n)).
      destruct (Cb r n Hn Hp) as [l [ls (A1 & A2 & A3 & A4 & A5 & _ & A6 & A7)]]. exists n, l, ls. auto 12. }
    assert (Last : forall ls i t, numbers (tag_of a :: ls) i t -> i = length ls -> t = tag_of a).
    { intros ls i t Hi ->. apply numbers_cons in Hi as [Hi|[_ Q]]; [|exact Q]. apply numbers_lt in Hi; lia. }
    assert (None_at : forall m i, S i = m -> write_list m i []).
    { intros m i <-. split; [constructor|]. intros j; split; [intros []|]. intros [Lt Hg]. apply hangs_up in Hg. lia. }
    destruct (step_logs h s a Hk F I) as [S1 S2].
    assert (Tag0 : times (tag_of a) (log_of (run v_empty h)) = 0) by (apply IH1; exact Hna).
    destruct (is_head_dec re_w tk HS LS TR HL LL TL h (match base_of a with Some x => x | None => tag_of a end) _ s I) as [Hx|Hx];
      destruct (base_of a) as [x|] eqn:Bx.
    2: { exfalso. apply Hna. now apply is_head_added. }
    2, 3: rewrite S1 by (auto; exact Logic.I); split; [intros t Hn; apply IH1, Old, Hn|];
      intros r ls i t Hr Ln Hi; (rewrite is_head_snoc in Hr by (try assumption; rewrite Bx; congruence)); rewrite Bx in Hr;
      destruct Hr as [->|[Hr Hne]];
      [assert (ls = [tag_of a]) as -> by (apply (line_unique (h ++ [a]) (tag_of a) ls (proj1 F) Ln); apply line_first; rewrite Bx; auto; exact Logic.I);
       pose proof (numbers_lt _ _ _ Hi) as Lt; cbn [length] in Lt; rewrite (Last [] i t Hi) by (cbn; lia);
       exists []; split; [apply None_at; cbn; lia|exact Tag0]
      |destruct (Line r Hr) as (_ & _ & ls' & _ & _ & _ & _ & Ln' & _);
       assert (ls = ls') as -> by (apply (line_unique (h ++ [a]) r ls (proj1 F) Ln); apply line_keep; [rewrite Bx; exact Hne|exact Ln']);
       exact (IH2 r ls' i t Hr Ln' Hi)].
    destruct (S2 x eq_refl Hx) as [p [Hw Hl]]. rewrite Hl.
    destruct (Line x Hx) as (n & l & lx & Hn & Hp & Rl & Fx & Lnx & P & Ph & [k Sp] & Hu).
    destruct (phase_moves s x p l lx k T (inv_numbered re_w tk HS LS TR HL LL TL h _ s F' I) Rl Ph Fx Hw Sp P Hu) as [y [My Hy]].
    assert (N : NoDup lx) by apply (Permutation_NoDup P), Rl. pose proof (line_head h x lx Lnx) as Hd.
    assert (Hx0 : numbers lx (length lx - 1) x) by now apply numbers_last.
    assert (M0 : 0 < length lx) by (apply numbers_lt in Hx0; lia).
    assert (T1 : forall t, times t (x :: (if teq (last p x) x then [] else [last p x]) ++ log_of (run v_empty h)) =
              (if teq x t then 1 else if teq (last p x) t then 1 else 0) + times t (log_of (run v_empty h))).
    { intros t. cbn [times]. destruct (teq_spec (last p x) x) as [Q|Q]; cbn [app times].
      - rewrite Q. destruct (teq x t); reflexivity.
      - destruct (teq_spec x t) as [<-|]; [destruct (teq_spec (last p x) x); [contradiction|reflexivity]|].
        destruct (teq (last p x) t); reflexivity. }
    assert (T2 : forall t, ~ In t lx -> times t (x :: (if teq (last p x) x then [] else [last p x]) ++ log_of (run v_empty h)) =
              times t (log_of (run v_empty h))).
    { intros t Ht. rewrite T1. destruct (teq_spec x t) as [->|]; [apply numbers_in in Hx0; contradiction|].
      destruct (teq_spec (last p x) t) as [<-|]; [apply (numbers_in lx y) in Hy; contradiction|reflexivity]. }
    assert (Ax : forall t, In t lx -> added h t).
    { intros t Ht. destruct (in_dec T_dec t (map tag_of h)) as [|C]; [assumption|]. exfalso.
      apply (known_added re_w tk HS LS TR HL LL TL _ _ _ _ I) in C.
      apply (Permutation_in _ (Permutation_sym P)) in Ht. now apply (r_known s l Rl) in Ht. }
    split.
    { intros t Ht. pose proof (Old t Ht) as Ht'. rewrite T2; [now apply IH1|]. intros C; apply Ht', Ax, C. }
    intros r ls i t Hr Ln Hi. rewrite is_head_snoc in Hr by (try assumption; rewrite Bx; congruence). rewrite Bx in Hr.
    destruct Hr as [->|[Hr Hne]].
    + assert (ls = tag_of a :: lx) as -> by (apply (line_unique (h ++ [a]) (tag_of a) ls (proj1 F) Ln); apply (line_next h a x); assumption).
      apply numbers_cons in Hi as [Hi|[-> ->]].
      * destruct (IH2 x lx i t Hx Lnx Hi) as [js [[Nj Hj] Tj]]. pose proof (numbers_lt _ _ _ Hi) as Li. cbn [length].
        pose proof (fun j => hangs_next (length lx) y i j M0 My) as Hg.
        rewrite T1. 
        assert (E1 : x = t <-> i + 1 = length lx).
        { split; [intros <-; pose proof (numbers_inj _ _ _ _ N Hi Hx0); lia|]. intros Q.
          unfold numbers in *. replace i with (length lx - 1) in Hi by lia. congruence. }
        assert (E2 : last p x = t <-> i = y).
        { split; [intros <-; exact (numbers_inj _ _ _ _ N Hi Hy)|]. intros ->. unfold numbers in *; congruence. }
        assert (Yes : i + 1 = length lx \/ i = y -> write_list (S (length lx)) i (length lx :: js)).
        { intros Q. split.
          - constructor; [|exact Nj]. intros C; apply Hj in C; lia.
          - intros j. cbn [In]. rewrite Hj. split.
            + intros [<-|[Lt Hh]]; split; try lia; [|exact Hh]. apply Hg. left. auto.
            + intros [Lt Hh]. destruct (Nat.eq_dec j (length lx)) as [->|]; [now left|right; split; [lia|exact Hh]]. }
        destruct (teq_spec x t) as [Q|Q]; [exists (length lx :: js); split; [apply Yes; left; now apply E1|cbn [length]; lia]|].
        destruct (teq_spec (last p x) t) as [Q2|Q2]; [exists (length lx :: js); split; [apply Yes; right; now apply E2|cbn [length]; lia]|].
        exists js. split; [|exact Tj]. split; [exact Nj|]. intros j. rewrite Hj. split; [intros [Lt Hh]; split; [lia|exact Hh]|].
        intros [Lt Hh]. split; [|exact Hh]. destruct (Nat.eq_dec j (length lx)) as [->|]; [exfalso|lia].
        apply Hg in Hh as [[_ [?|?]]|[_ [_ Hh]]]; [tauto|tauto|]. apply hangs_up in Hh; lia.
      * exists []. split; [apply None_at; reflexivity|]. rewrite T2; [exact Tag0|]. intros C; apply Hna, Ax, C.
    + destruct (Line r Hr) as (_ & _ & ls' & _ & _ & _ & _ & Ln' & _).
      assert (ls = ls') as -> by (apply (line_unique (h ++ [a]) r ls (proj1 F) Ln); apply line_keep; [rewrite Bx; exact Hne|exact Ln']).
      rewrite T2; [exact (IH2 r ls' i t Hr Ln' Hi)|]. intros C. apply Hne.
      rewrite (line_disjoint h s x r lx ls' t F' I Cb Hx Hr Lnx Ln' C (numbers_in _ _ _ Hi)). reflexivity.
Qed.

Lemma write_list_three m i js : write_list m i js -> length js <= 3.
Proof.
  intros [N H]. destruct (hangs_three i) as [l [L A]]. rewrite <- L. apply NoDup_incl_length; [exact N|].
  intros j Hj. apply H in Hj as [_ Hj]. exact (A _ _ Hj).
Qed.
End H.

Lemma moves_one m y y' : 0 < m -> moves m y -> moves m y' -> y = y'.
Proof.
  intros M A B. destruct (Nat.eq_dec (y + 1) m) as [Q|Q], (Nat.eq_dec (y' + 1) m) as [Q'|Q']; try lia.
  - pose proof (proj2 (hangs_next m y' y' m M B) (or_introl (conj eq_refl (or_intror eq_refl)))) as H.
    apply (hangs_next m y y' m M A) in H as [[_ [?|?]]|[_ [_ H]]]; [lia|lia|]. apply hangs_up in H; lia.
  - pose proof (proj2 (hangs_next m y y m M A) (or_introl (conj eq_refl (or_intror eq_refl)))) as H.
    apply (hangs_next m y' y m M B) in H as [[_ [?|?]]|[_ [_ H]]]; [lia|lia|]. apply hangs_up in H; lia.
  - pose proof (proj2 (hangs_next m y y m M A) (or_introl (conj eq_refl (or_intror eq_refl)))) as H.
    apply (hangs_next m y' y m M B) in H as [[_ [?|?]]|[_ [_ H]]]; [lia|lia|]. apply hangs_up in H; lia.
Qed.
Theorem moves_unique m : 0 < m -> exists! y, moves m y.
Proof. intros M. destruct (moves_exists m M) as [y Y]. exists y. split; [exact Y|]. intros y'. now apply moves_one. Qed.

Section Both.
Context {K : Type} {E : Teq K} {O : TeqOk K}.
Variable re_w : Z -> bool.
Variable tk : tkind.

Section Any.
Variables HS DS : store K.
Variable TR : tree_impl K.
Variable HL : store_law HS.
Variable DL : store_law DS.
Variable TL : tree_law TR.
Context {TX : Exact TL}.
Theorem writes_three h : tk <> KLine -> fresh tk h ->
  let v := run re_w tk HS (logged DS) TR v_empty h in
  (forall t, times t (fst (diffs v)) <= 3) /\
  (forall x ls i t, is_head h x -> line h x ls -> numbers ls i t -> exists js,
     write_list (length ls) i js /\ times t (fst (diffs v)) = length js) /\
  (forall t, get re_w tk HS (logged DS) TR v t = get re_w tk HS DS TR (run re_w tk HS DS TR v_empty h) t).
Proof.
  intros Hk F v. destruct (writes_exact re_w tk HS DS TR HL DL TL h Hk F) as [A B]. split; [|split].
  - intros t. destruct (in_dec T_dec t (map tag_of h)) as [Ht|Ht].
    + destruct (proj1 (exact_paths re_w tk HS (logged DS) TR HL (logged_law DL) TL h Hk F) t Ht) as [x [ls [Hx [Ln Hin]]]].
      apply in_rev, In_nth_error in Hin as [i Hi].
      destruct (B x ls i t Hx Ln Hi) as [js [W Tj]]. unfold log_of in Tj. fold v in Tj. rewrite Tj.
      exact (write_list_three _ _ _ W).
    + specialize (A t Ht). unfold log_of in A. fold v in A. rewrite A. lia.
  - exact B.
  - intros t. destruct (retrieval re_w tk HS (logged DS) TR HL (logged_law DL) TL h Hk F) as [R1 R2].
    destruct (retrieval re_w tk HS DS TR HL DL TL h Hk F) as [S1 S2].
    destruct (V_of h t) as [b|] eqn:Hv.
    + apply V_of_some in Hv as [base Hin]. unfold v. rewrite (R1 _ _ _ Hin). symmetry. exact (S1 _ _ _ Hin).
    + apply V_of_none in Hv. unfold v. rewrite (R2 _ Hv). symmetry. exact (S2 _ Hv).
Qed.
End Any.

Notation D := (dict_store K).
Notation C := (db_store K).
Notation M := (memory_tree K).
Notation T := (db_tree K).
Theorem writes_memory h : tk <> KLine -> fresh tk h ->
  let v := run re_w tk D (logged D) M v_empty h in
  (forall t, times t (fst (diffs v)) <= 3) /\
  (forall x ls i t, is_head h x -> line h x ls -> numbers ls i t -> exists js,
     write_list (length ls) i js /\ times t (fst (diffs v)) = length js) /\
  (forall t, get re_w tk D (logged D) M v t = get re_w tk D D M (run re_w tk D D M v_empty h) t).
Proof. exact (writes_three D D M dict_law dict_law memory_law h). Qed.
Theorem writes_db place1 place2 h : tk <> KLine -> fresh tk h ->
  let v := run re_w tk (C place1) (logged (C place2)) T v_empty h in
  (forall t, times t (fst (diffs v)) <= 3) /\
  (forall x ls i t, is_head h x -> line h x ls -> numbers ls i t -> exists js,
     write_list (length ls) i js /\ times t (fst (diffs v)) = length js) /\
  (forall t, get re_w tk (C place1) (logged (C place2)) T v t =
             get re_w tk (C place1) (C place2) T (run re_w tk (C place1) (C place2) T v_empty h) t).
Proof. exact (writes_three (C place1) (C place2) T (db_store_law place1) (db_store_law place2) db_law h). Qed.
End Both.
