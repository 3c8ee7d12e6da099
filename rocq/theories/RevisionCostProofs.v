(** How long [insert] and [reevaluate] of src/deprecated/revision_tree.py run. *)
From Coq Require Import Lia Permutation.
From Verif Require Import Base TreeShape TreeRake Revision RevisionCost SpecRevision RevisionProofs RevisionInsert RevisionStep RevisionShape RevisionTree RevisionState RevisionSound.
Local Open Scope nat_scope.

Section R.
Context {K : Type} {E : Teq K} {O : TeqOk K}.
Notation rake := (rake (K := K)).
Notation rnodes := (dict K (rnode K)).
Implicit Type s : rnodes.
Implicit Type l : rake.

(** ** The copies do the same *)
Definition drop {A} (r : res (nat * A)) : res A := let* x := r in Ok (snd x).
Lemma drop_update fuel : forall cur s, drop (c_update fuel cur s) = r_update fuel cur s.
Proof.
  induction fuel as [|fuel IH]; intros [t|] s; cbn [c_update r_update]; try reflexivity.
  destruct (node_at s t) as [n|]; [|reflexivity]. cbn [bind]. destruct (r_states s (r_left n)); [|reflexivity]. cbn [bind].
  destruct (r_states s (r_right n)); [|reflexivity]. cbn [bind]. rewrite <- IH. unfold drop.
  match goal with |- context [c_update fuel ?c ?x] => destruct (c_update fuel c x) end; reflexivity.
Qed.
Lemma drop_set put t c s : drop (c_set put t c s) = r_set put t c s.
Proof.
  unfold c_set, r_set. destruct (node_at s t) as [n|]; [|reflexivity]. cbn [bind].
  destruct c as [c|]; [|cbn [bind]; apply drop_update]. destruct (node_at _ c); [|reflexivity]. cbn [bind]. apply drop_update.
Qed.
Lemma drop_find fuel : forall depth dir cur s, drop (c_find fuel depth dir cur s) = r_find fuel depth dir cur s.
Proof.
  induction fuel as [|fuel IH]; intros depth dir cur s; cbn [c_find r_find]; (destruct (node_at s cur) as [n|]; [|reflexivity]); cbn [bind];
    (destruct (depth <? r_height n); [|reflexivity]); [reflexivity|].
  assert (X : forall d c y, drop (let* x := c_find fuel d c y s in Ok (1 + fst x, snd x)) = r_find fuel d c y s).
  { intros d c y. rewrite <- IH. unfold drop. destruct (c_find fuel d c y s); reflexivity. }
  destruct (r_left n) as [a|], (r_right n) as [b|]; try apply X; [|reflexivity].
  destruct (node_at s a) as [na|]; [|reflexivity]. destruct (node_at s b) as [nb|]; [|reflexivity]. cbn [bind]. destruct (r_height na <? r_height nb); apply X.
Qed.
Lemma drop_insert a t : drop (c_insert a t) = r_insert a t.
Proof.
  unfold c_insert, r_insert. set (s := dset _ _ _). destruct (r_root t) as [x|].
  - destruct (node_at s x) as [n|]; [|reflexivity]. cbn [bind]. rewrite <- drop_find. unfold drop at 2.
    destruct (c_find (r_height n) 1 NONE x s) as [[f [b dir]]|]; [|reflexivity]. cbn [bind fst snd].
    destruct (teq b x).
    + rewrite <- drop_set. unfold drop. destruct (c_set put_left a (Some x) s) as [[? ?]|]; reflexivity.
    + destruct (node_at s b) as [m|]; [|reflexivity]. cbn [bind].
      set (u := match r_parent m with None => Ok (0, s) | Some p => _ end). set (v := match r_parent m with None => Ok s | Some p => _ end).
      assert (Q : drop u = v). { unfold u, v. destruct (r_parent m); [|reflexivity]. destruct dir; apply drop_set. }
      rewrite <- Q. unfold drop at 2. destruct u as [[? s1]|]; [|reflexivity]. cbn [bind fst snd].
      rewrite <- drop_set. unfold drop at 2. destruct (c_set put_right a (Some b) s1) as [[? s2]|]; [|reflexivity]. cbn [bind fst snd].
      rewrite <- drop_set. unfold drop. destruct (c_set put_left a (Some x) s2) as [[? s3]|]; reflexivity.
  - rewrite <- drop_set. unfold drop. destruct (c_set put_left a None s) as [[? ?]|]; reflexivity.
Qed.
Lemma drop_ripple fuel : forall cur s, drop (c_ripple fuel cur s) = r_ripple fuel cur s.
Proof.
  induction fuel as [|fuel IH]; intros [t|] s; cbn [c_ripple r_ripple]; try reflexivity.
  rewrite <- drop_update. unfold drop at 2. destruct (c_update (length s) (Some t) s) as [[c s1]|]; [|reflexivity]. cbn [bind fst snd].
  destruct (node_at s1 t) as [n|]; [|reflexivity]. cbn [bind]. rewrite <- IH. unfold drop. destruct (c_ripple fuel (r_parent n) s1) as [[? ?]|]; reflexivity.
Qed.
Lemma drop_loop ts : forall s, drop (c_reevaluate_loop ts s) = r_reevaluate_loop ts s.
Proof.
  induction ts as [|t ts IH]; intros s; cbn [c_reevaluate_loop r_reevaluate_loop]; [reflexivity|].
  destruct (node_at s t) as [n|]; [|reflexivity]. cbn [bind].
  assert (Q : drop (match r_left n, r_right n with None, None => c_ripple (length s) (Some t) s | _, _ => Ok (0, s) end) =
              match r_left n, r_right n with None, None => r_ripple (length s) (Some t) s | _, _ => Ok s end).
  { destruct (r_left n), (r_right n); try reflexivity. apply drop_ripple. }
  rewrite <- Q. clear Q. unfold drop at 2. destruct (match r_left n with Some _ => _ | None => _ end) as [[c s1]|]; [|reflexivity]. cbn [bind fst snd].
  rewrite <- IH. unfold drop. destruct (c_reevaluate_loop ts s1) as [[? ?]|]; reflexivity.
Qed.
Lemma drop_reevaluate t : drop (c_reevaluate t) = r_reevaluate t.
Proof.
  unfold c_reevaluate, r_reevaluate. rewrite <- drop_loop. unfold drop. destruct (c_reevaluate_loop (dkeys (r_index t)) (r_index t)) as [[? ?]|]; reflexivity.
Qed.

(** ** Steps and ways up *)
Definition same_parents s s' : Prop := forall v, option_map r_parent (dget s v) = option_map r_parent (dget s' v).
Lemma up_same s s' fuel : same_parents s s' -> forall cur, r_up fuel cur s = r_up fuel cur s'.
Proof.
  intros H. induction fuel as [|fuel IH]; intros [t|]; cbn [r_up]; try reflexivity. specialize (H t). unfold node_at.
  destruct (dget s t) as [n|], (dget s' t) as [m|]; cbn in H; try discriminate; [|reflexivity]. injection H as H. cbn [bind]. rewrite H, IH. reflexivity.
Qed.
Lemma same_dset s v n m : dget s v = Some n -> r_parent m = r_parent n -> same_parents (dset s v m) s.
Proof.
  intros G P w. destruct (T_dec v w) as [<-|D]; [rewrite dget_dset_same, G; cbn; congruence|now rewrite dget_dset_other by congruence].
Qed.
Lemma up_fuel s f1 : forall f2 cur p q, r_up f1 cur s = Ok p -> r_up f2 cur s = Ok q -> p = q.
Proof.
  induction f1 as [|f1 IH]; intros f2 [u|] p q U1 U2; cbn [r_up] in U1; try discriminate.
  - injection U1 as <-. destruct f2; cbn [r_up] in U2; congruence.
  - destruct f2 as [|f2]; cbn [r_up] in U2; [discriminate|]. destruct (node_at s u) as [n|]; [|discriminate]. cbn [bind] in *.
    destruct (r_up f1 (r_parent n) s) as [x|] eqn:X1; [|discriminate]. destruct (r_up f2 (r_parent n) s) as [y|] eqn:X2; [|discriminate]. cbn [bind] in *.
    rewrite (IH f2 _ x y X1 X2) in U1. congruence.
  - injection U1 as <-. destruct f2; cbn [r_up] in U2; congruence.
Qed.
Definition same_links s s' : Prop := forall v, option_map links (dget s v) = option_map links (dget s' v).
Lemma links_parents s s' : same_links s s' -> same_parents s s'.
Proof.
  intros H v. specialize (H v). destruct (dget s v) as [n|], (dget s' v) as [m|]; cbn in *; try discriminate; [|reflexivity]. injection H as _ _ _ H. now rewrite H.
Qed.
Lemma same_links_dset s v n h z : dget s v = Some n -> same_links (dset s v (set_states n h z)) s.
Proof.
  intros G w. destruct (T_dec v w) as [<-|D]; [rewrite dget_dset_same, G; reflexivity|now rewrite dget_dset_other by congruence].
Qed.
Lemma same_links_trans s1 s2 s3 : same_links s1 s2 -> same_links s2 s3 -> same_links s1 s3.
Proof. intros A B v. now rewrite A. Qed.
Lemma update_steps fuel : forall cur s c s', c_update fuel cur s = Ok (c, s') -> exists p, r_up fuel cur s = Ok p /\ c = length p /\ same_links s' s.
Proof.
  induction fuel as [|fuel IH]; intros [t|] s c s'; cbn [c_update r_up]; try discriminate; try (intros H; injection H as <- <-; exists []; split; [reflexivity|split; [reflexivity|intros v; reflexivity]]).
  unfold node_at. destruct (dget s t) as [n|] eqn:G; [|discriminate]. cbn [bind]. destruct (r_states s (r_left n)) as [a|]; [|discriminate]. cbn [bind].
  destruct (r_states s (r_right n)) as [b|]; [|discriminate]. cbn [bind]. set (s1 := dset s t _).
  destruct (c_update fuel (r_parent n) s1) as [[c1 s2]|] eqn:U; [|discriminate]. cbn [bind fst snd]. intros H; injection H as <- <-.
  destruct (IH _ _ _ _ U) as [p [Up [-> Sp]]]. assert (S1 : same_links s1 s) by apply (same_links_dset s t n _ _ G).
  rewrite (up_same s1 s fuel (links_parents _ _ S1)) in Up. rewrite Up. exists (t :: p). split; [reflexivity|split; [reflexivity|]]. exact (same_links_trans _ _ _ Sp S1).
Qed.

(** *** [insert] *)
Lemma set_none_steps put p s k s' : (forall n c, r_parent (put n c) = r_parent n) -> c_set put p None s = Ok (k, s') ->
  exists f q, r_up f (Some p) s = Ok q /\ k = length q /\ same_parents s' s.
Proof.
  intros P. unfold c_set, node_at. destruct (dget s p) as [n|] eqn:G; [|discriminate]. cbn [bind]. intros U.
  destruct (update_steps _ _ _ _ _ U) as [q [Uq [-> L]]]. assert (S1 : same_parents (dset s p (put n None)) s) by (apply (same_dset s p n); [exact G|apply P]).
  rewrite (up_same _ s _ S1) in Uq. eexists _, q. split; [exact Uq|split; [reflexivity|]]. intros v. rewrite (links_parents _ _ L v). apply S1.
Qed.
Definition rootless s (a : K) : Prop := exists n, dget s a = Some n /\ r_parent n = None.
Lemma rootless_same s s' a : same_parents s' s -> rootless s a -> rootless s' a.
Proof. intros H [n [G P]]. specialize (H a). rewrite G in H. unfold rootless. destruct (dget s' a) as [m|]; [|discriminate]. cbn in H. injection H as H. exists m. split; [reflexivity|congruence]. Qed.
Lemma set_some_steps put a c s k s' : (forall n c, r_parent (put n c) = r_parent n) -> c <> a -> rootless s a -> c_set put a (Some c) s = Ok (k, s') ->
  k = 1 /\ rootless s' a.
Proof.
  intros P D [n [G Pn]]. unfold c_set, node_at. rewrite G. cbn [bind]. set (s1 := dset s a (put n (Some c))).
  destruct (dget s1 c) as [m|] eqn:Gc; [|discriminate]. cbn [bind]. intros U. set (s2 := dset s1 c (set_rparent m (Some a))) in U.
  assert (Ra : rootless s2 a).
  { exists (put n (Some c)). unfold s2. rewrite dget_dset_other by congruence. unfold s1. rewrite dget_dset_same. split; [reflexivity|now rewrite P]. }
  destruct (update_steps _ _ _ _ _ U) as [q [Uq [-> L]]]. split; [|exact (rootless_same _ _ a (links_parents _ _ L) Ra)].
  destruct Ra as [m2 [G2 P2]]. cbn [r_up] in Uq. unfold node_at in Uq. rewrite G2 in Uq. cbn [bind] in Uq. rewrite P2 in Uq.
  destruct (length s2); cbn [r_up bind] in Uq; injection Uq as <-; reflexivity.
Qed.
Lemma set_first_steps a s k s' : rootless s a -> c_set put_left a None s = Ok (k, s') -> k = 1.
Proof.
  intros [n [G Pn]] H. destruct (set_none_steps put_left a s k s' ltac:(reflexivity) H) as [f [q [U [-> _]]]].
  destruct f; cbn [r_up] in U; [discriminate|]. unfold node_at in U. rewrite G in U. cbn [bind] in U. rewrite Pn in U. destruct f; cbn [r_up bind] in U; injection U as <-; reflexivity.
Qed.

Definition parents_ok s : Prop := forall v n c, dget s v = Some n -> r_left n = Some c \/ r_right n = Some c -> exists m, dget s c = Some m /\ r_parent m = Some v.
Lemma find_steps s : parents_ok s -> forall fuel depth dir cur k b dir', c_find fuel depth dir cur s = Ok (k, (b, dir')) ->
  forall f p, r_up f (Some cur) s = Ok p -> (b = cur /\ k = 0 \/ exists m q, dget s b = Some m /\ r_parent m = Some q) /\
    exists f' p', r_up f' (Some b) s = Ok p' /\ length p' = length p + k.
Proof.
  intros PO. induction fuel as [|fuel IH]; intros depth dir cur k b dir' H f p U; cbn [c_find] in H; unfold node_at at 1 in H;
    (destruct (dget s cur) as [n|] eqn:G; [|discriminate]); cbn [bind] in H; destruct (depth <? r_height n); try discriminate;
    try (injection H as <- <- <-; split; [auto|exists f, p; split; [exact U|lia]]; fail).
  assert (X : forall d c y, r_left n = Some y \/ r_right n = Some y -> (let* x := c_find fuel d c y s in Ok (1 + fst x, snd x)) = Ok (k, (b, dir')) ->
    (b = cur /\ k = 0 \/ exists m q, dget s b = Some m /\ r_parent m = Some q) /\ exists f' p', r_up f' (Some b) s = Ok p' /\ length p' = length p + k).
  { intros d c y Hy Q. destruct (c_find fuel d c y s) as [[k1 [b1 d1]]|] eqn:Fi; [|discriminate]. cbn [bind fst snd] in Q. injection Q as <- <- <-.
    destruct (PO cur n y G Hy) as [m [Gm Pm]].
    assert (Uy : r_up (S f) (Some y) s = Ok (y :: p)) by (cbn [r_up]; unfold node_at at 1; rewrite Gm; cbn [bind]; rewrite Pm, U; reflexivity).
    destruct (IH d c y k1 b1 d1 Fi (S f) (y :: p) Uy) as [A [f' [p' [Up Lp]]]]. split; [|exists f', p'; split; [exact Up|cbn [length] in Lp; lia]].
    right. destruct A as [[-> _]|A]; [exists m, cur; auto|exact A]. }
  destruct (r_left n) as [l|] eqn:Hl, (r_right n) as [r|] eqn:Hr; [|apply (X _ _ _ (or_introl eq_refl) H)|apply (X _ _ _ (or_intror eq_refl) H)|discriminate].
  destruct (node_at s l) as [nl|]; [|discriminate]. destruct (node_at s r) as [nr|]; [|discriminate]. cbn [bind] in H.
  destruct (r_height nl <? r_height nr); [apply (X _ _ _ (or_intror eq_refl) H)|apply (X _ _ _ (or_introl eq_refl) H)].
Qed.
Lemma insert_steps rt l ts a k r : good rt l ts -> ~ In a ts -> c_insert a rt = Ok (k, r) ->
  (snd (snd r) = [] /\ k = 1) \/ exists q b, snd (snd r) = [(q, b)] /\ In b (rtags l) /\ k = 2 * length (rpath l b).
Proof.
  intros G Ha H. unfold c_insert in H. set (s := dset _ _ _) in H.
  assert (Ra : rootless s a) by (eexists; split; [apply dget_dset_same|reflexivity]).
  pose proof (spine0 rt l ts G a Ha) as SP. fold s in SP. pose proof (good_nd rt l ts G) as N.
  destruct (r_root rt) as [x|] eqn:Rx.
  2: { destruct (c_set put_left a None s) as [[c s1]|] eqn:Cs; [|discriminate]. cbn [bind fst snd] in H. injection H as <- <-.
       left. split; [reflexivity|exact (set_first_steps a s c s1 Ra Cs)]. }
  rewrite (g_root _ _ _ G) in Rx. assert (Ix : In x (rtags l)) by now apply first_in.
  assert (Tin : forall v, In v (rtags l) <-> In v ts) by (intros v; split; apply Permutation_in; [|symmetry]; apply (g_perm _ _ _ G)).
  assert (Xa : x <> a) by (intros ->; apply Ha, Tin, Ix).
  assert (Up : forall v, In v (rtags l) -> exists f, r_up f (Some v) s = Ok (rev (rpath l v))).
  { intros v Hv. exists (0 + length (rpath l v)). rewrite (up_spine s v l None 0 SP N Hv). cbn [r_up bind]. now rewrite app_nil_r. }
  destruct (node_at s x) as [n|]; [|discriminate]. cbn [bind] in H.
  destruct (c_find (r_height n) 1 NONE x s) as [[f0 [b dir]]|] eqn:Fi; [|discriminate]. cbn [bind fst snd] in H.
  assert (PO : parents_ok s).
  { intros v m c Gv Hc. destruct (T_dec a v) as [<-|Dv].
    - unfold s in Gv. rewrite dget_dset_same in Gv. injection Gv as <-. destruct Hc; discriminate.
    - unfold s in Gv. rewrite dget_dset_other in Gv by congruence.
      destruct (so_child _ (good_sound rt l ts G) c v) as [n1 [m1 [G1 [_ [P1 _]]]]]; [exists m; auto|]. exists n1. split; [|exact P1].
      unfold s. rewrite dget_dset_other; [exact G1|]. intros <-. apply Ha. rewrite <- (g_keys _ _ _ G). apply dget_keys. congruence. }
  destruct (Up x Ix) as [fx Ux]. destruct (find_steps s PO _ _ _ _ _ _ _ Fi fx _ Ux) as [Cb [fb [pb [Ub Lb]]]].
  assert (Px : rpath l x = [x]).
  { destruct l as [|[q t] l']; [discriminate|]. injection Rx as ->. cbn [rpath]. now rewrite teq_refl. }
  rewrite Px in Lb. cbn [rev app length] in Lb.
  destruct (teq_spec b x) as [->|Nb].
  - destruct (c_set put_left a (Some x) s) as [[c s1]|] eqn:Cs; [|discriminate]. cbn [bind fst snd] in H. injection H as <- <-.
    destruct (set_some_steps put_left a x s c s1 ltac:(reflexivity) Xa Ra Cs) as [-> _].
    rewrite (up_fuel s _ _ _ _ _ Ub Ux), Px in Lb. cbn in Lb. left. split; [reflexivity|lia].
  - destruct Cb as [[-> _]|[m [q [Gb Pb]]]]; [contradiction|].
    assert (Ba : b <> a). { intros ->. destruct Ra as [n1 [G1 P1]]. congruence. }
    assert (Ib : In b (rtags l)).
    { apply Tin. rewrite <- (g_keys _ _ _ G). apply dget_keys. unfold s in Gb. rewrite dget_dset_other in Gb by congruence. congruence. }
    destruct (Up b Ib) as [fb2 Ub2]. pose proof (up_fuel s _ _ _ _ _ Ub Ub2) as Qp.
    assert (Lp : length pb = length (rpath l b)) by (rewrite Qp; apply rev_length).
    unfold node_at in H. rewrite Gb in H. cbn [bind] in H. rewrite Pb in H.
    assert (Y : exists put, (forall n c, r_parent (put n c) = r_parent n) /\ match dir with LEFT => c_set put_left q None s | _ => c_set put_right q None s end = c_set put q None s).
    { destruct dir; [exists put_right|exists put_left|exists put_right]; split; reflexivity. }
    destruct Y as [put [Pp Qput]]. rewrite Qput in H. destruct (c_set put q None s) as [[c1 s1]|] eqn:C1; [|discriminate]. cbn [bind fst snd] in H.
    destruct (set_none_steps put q s c1 s1 Pp C1) as [f1 [q1 [U1 [-> S1]]]].
    destruct (c_set put_right a (Some b) s1) as [[c2 s2]|] eqn:C2; [|discriminate]. cbn [bind fst snd] in H.
    destruct (set_some_steps put_right a b s1 c2 s2 ltac:(reflexivity) Ba (rootless_same _ _ a S1 Ra) C2) as [-> R2].
    destruct (c_set put_left a (Some x) s2) as [[c3 s3]|] eqn:C3; [|discriminate]. cbn [bind fst snd] in H. injection H as <- <-.
    destruct (set_some_steps put_left a x s2 c3 s3 ltac:(reflexivity) Xa R2 C3) as [-> _].
    assert (U2 : r_up (S f1) (Some b) s = Ok (b :: q1)) by (cbn [r_up]; unfold node_at at 1; rewrite Gb; cbn [bind]; rewrite Pb, U1; reflexivity).
    pose proof (up_fuel s _ _ _ _ _ Ub U2) as Q2. rewrite Q2 in Lp, Lb. cbn [length] in Lp, Lb. right. exists q, b. split; [reflexivity|split; [exact Ib|lia]].
Qed.
Lemma insert_bound rt l ts a k r : good rt l ts -> ~ In a ts -> c_insert a rt = Ok (k, r) -> k <= 2 * tall_of (lens l) + (if r_root rt then 0 else 1).
Proof.
  intros G Ha H. destruct (insert_steps rt l ts a k r G Ha H) as [[_ ->]|[q [b [_ [_ ->]]]]].
  - rewrite (g_root _ _ _ G). destruct l as [|[q t] l]; cbn; lia.
  - pose proof (rpath_length l b). lia.
Qed.
Theorem insert_cost ts a : NoDup (ts ++ [a]) -> exists t k r, r_insert_all ts r_empty = Ok t /\ c_insert a t = Ok (k, r) /\ r_insert a t = Ok r /\
  k * k <= 16 * length ts + 4.
Proof.
  intros N0. assert (Na : ~ In a ts /\ NoDup ts).
  { apply NoDup_remove in N0 as [A B]. rewrite app_nil_r in A, B. auto. }
  destruct Na as [Na N]. destruct (list_eq_dec T_dec ts []) as [->|Ne].
  - destruct (insert_first a) as [rt [I [G _]]]. exists r_empty. pose proof (drop_insert a r_empty) as D. rewrite I in D. unfold drop in D.
    destruct (c_insert a r_empty) as [[k r]|] eqn:C; [|discriminate]. exists k, r. cbn [bind snd] in D. split; [reflexivity|split; [reflexivity|split; [congruence|]]].
    assert (G0 : good (r_empty (K := K)) [] []) by (split; [reflexivity|exact Logic.I|constructor|constructor|reflexivity]).
    pose proof (insert_bound r_empty [] [] a k r G0 (fun x => x) C) as L. cbn in L. cbn. nia.
  - destruct (insertions ts N Ne) as [rt [l [I [G [P F]]]]]. destruct (insert_step rt l ts a G Ne P Na) as [rt' [l' [ins [rem [I' _]]]]].
    pose proof (drop_insert a rt) as D. rewrite I' in D. unfold drop in D. destruct (c_insert a rt) as [[k r]|] eqn:C; [|discriminate]. cbn [bind snd] in D.
    exists rt, k, r. split; [exact I|split; [exact C|split; [congruence|]]]. pose proof (insert_bound rt l ts a k r G Na C) as L.
    rewrite (g_root _ _ _ G), (F a) in L. destruct (phaseR_tall _ _ P) as [A _]. nia.
Qed.
(** twice the way to the tag split off *)
Theorem insert_cost_exactly ts a : NoDup (ts ++ [a]) -> exists t k t' ins rem, r_insert_all ts r_empty = Ok t /\ c_insert a t = Ok (k, (t', (ins, rem))) /\
  (rem = [] /\ k = 1 \/ exists q b p, rem = [(q, b)] /\ r_path_to t b = Ok p /\ k = 2 * length p).
Proof.
  intros N0. assert (Na : ~ In a ts /\ NoDup ts).
  { apply NoDup_remove in N0 as [A B]. rewrite app_nil_r in A, B. auto. }
  destruct Na as [Na N]. destruct (insert_cost ts a N0) as [t [k [[t' [ins rem]] [I [C _]]]]]. exists t, k, t', ins, rem. split; [exact I|split; [exact C|]].
  destruct (list_eq_dec T_dec ts []) as [->|Ne].
  - assert (G0 : good (r_empty (K := K)) [] []) by (split; [reflexivity|exact Logic.I|constructor|constructor|reflexivity]).
    cbn in I. injection I as <-. destruct (insert_steps r_empty [] [] a k _ G0 (fun x => x) C) as [H|[q [b [_ [[] _]]]]]. now left.
  - destruct (insertions ts N Ne) as [rt [l [I' [G _]]]]. rewrite I in I'. injection I' as <-.
    destruct (insert_steps t l ts a k _ G Na C) as [H|[q [b [H1 [H2 H3]]]]]; [now left|right]. cbn [fst snd] in H1.
    exists q, b, (rpath l b). split; [exact H1|split; [|exact H3]]. apply (good_path t l ts G). exact (Permutation_in _ (g_perm _ _ _ G) H2).
Qed.

(** *** [reevaluate] *)
Lemma ripple_steps fuel : forall cur s c s', c_ripple fuel cur s = Ok (c, s') -> exists p, r_up fuel cur s = Ok p /\ 2 * c = length p * (length p + 1) /\ same_links s' s.
Proof.
  induction fuel as [|fuel IH]; intros [t|] s c s'; cbn [c_ripple r_up]; try discriminate; try (intros H; injection H as <- <-; exists []; split; [reflexivity|split; [reflexivity|intros v; reflexivity]]).
  destruct (c_update (length s) (Some t) s) as [[c1 s1]|] eqn:U; [|discriminate]. cbn [bind fst snd]. destruct (update_steps _ _ _ _ _ U) as [p [Up [-> L1]]].
  unfold node_at at 1. destruct (dget s1 t) as [n|] eqn:G1; [|discriminate]. cbn [bind].
  destruct (c_ripple fuel (r_parent n) s1) as [[c2 s2]|] eqn:C2; [|discriminate]. cbn [bind fst snd]. intros H; injection H as <- <-.
  destruct (IH _ _ _ _ C2) as [r [Ur [Lr L2]]]. rewrite (up_same s1 s fuel (links_parents _ _ L1)) in Ur.
  pose proof (links_parents _ _ L1 t) as Pt. rewrite G1 in Pt. unfold node_at. destruct (dget s t) as [m|] eqn:Gt; [|discriminate]. cbn in Pt. injection Pt as Pt. cbn [bind]. rewrite <- Pt, Ur. cbn [bind].
  exists (t :: r). split; [reflexivity|split; [|exact (same_links_trans _ _ _ L2 L1)]].
  assert (U2 : r_up (S fuel) (Some t) s = Ok (t :: r)) by (cbn [r_up]; unfold node_at; rewrite Gt; cbn [bind]; rewrite <- Pt, Ur; reflexivity).
  rewrite (up_fuel s _ _ _ _ _ Up U2). cbn [length]. lia.
Qed.
Definition loneb s (v : K) : bool := match dget s v with Some n => match r_left n, r_right n with None, None => true | _, _ => false end | None => false end.
Lemma lone_same s s' v : same_links s' s -> loneb s' v = loneb s v.
Proof. intros H. specialize (H v). unfold loneb. destruct (dget s' v) as [n|], (dget s v) as [m|]; cbn in H; try discriminate; [|reflexivity]. injection H as _ -> -> _. reflexivity. Qed.
Definition tri (n : nat) : nat := n * (n + 1).
Lemma loop_steps (dep : K -> nat) ts : forall s c s', (forall v f p, In v ts -> r_up f (Some v) s = Ok p -> length p = dep v) ->
  c_reevaluate_loop ts s = Ok (c, s') -> 2 * c = list_sum (map (fun v => if loneb s v then tri (dep v) else 0) ts).
Proof.
  induction ts as [|t ts IH]; intros s c s' Hd; cbn [c_reevaluate_loop map list_sum]; [intros H; injection H as <- <-; reflexivity|].
  unfold node_at. unfold loneb at 1. destruct (dget s t) as [n|] eqn:G; [|discriminate]. cbn [bind].
  set (st := match r_left n with Some _ => Ok (0, s) | None => _ end).
  destruct st as [[c1 s1]|] eqn:St; [|discriminate]. cbn [bind fst snd]. destruct (c_reevaluate_loop ts s1) as [[c2 s2]|] eqn:C2; [|discriminate]. cbn [bind fst snd].
  intros H; injection H as <- _.
  assert (Y : 2 * c1 = (if match r_left n, r_right n with None, None => true | _, _ => false end then tri (dep t) else 0) /\ same_links s1 s).
  { unfold st in St. destruct (r_left n); [injection St as <- <-; split; [reflexivity|intros v; reflexivity]|].
    destruct (r_right n); [injection St as <- <-; split; [reflexivity|intros v; reflexivity]|].
    destruct (ripple_steps _ _ _ _ _ St) as [p [Up [Lp L]]]. split; [|exact L]. rewrite Lp, (Hd t _ p (or_introl eq_refl) Up). reflexivity. }
  destruct Y as [Y L1]. cbn [list_sum fold_right]. rewrite <- Y.
  assert (IH2 : 2 * c2 = list_sum (map (fun v => if loneb s1 v then tri (dep v) else 0) ts)).
  { apply (IH s1 c2 s2); [|exact C2]. intros v f p Hv U. rewrite (up_same s1 s f (links_parents _ _ L1)) in U. exact (Hd v f p (or_intror Hv) U). }
  rewrite (map_ext (fun v => if loneb s1 v then tri (dep v) else 0) (fun v => if loneb s v then tri (dep v) else 0)) in IH2.
  2: { intros v. now rewrite (lone_same s s1 v L1). }
  unfold list_sum in *. cbn [fold_right]. lia.
Qed.

Fixpoint leafsum (i : nat) (a : list nat) : nat :=
  match a with
  | [] => 0
  | t :: r => (match t, r with 0, [] => tri (i + 1) | 0, _ => 0 | _, _ => tri (i + 1 + t) end) + leafsum (S i) r
  end.
Lemma list_sum_ext (f g : K -> nat) L : (forall v, In v L -> f v = g v) -> list_sum (map f L) = list_sum (map g L).
Proof. intros H. f_equal. apply map_ext_in, H. Qed.
Lemma sum_tooth s t : forall q i, tooth s q t -> NoDup t ->
  list_sum (map (fun v => if loneb s v then tri (i + length (upto v t)) else 0) t) = match t with [] => 0 | _ => tri (i + length t) end.
Proof.
  induction t as [|d t IH]; intros q i T N; [reflexivity|]. cbn [tooth] in T. destruct T as [[j [lf [rt [G D]]]] T]. apply NoDup_cons_iff in N as [Nd N].
  cbn [map list_sum fold_right]. unfold list_sum; cbn [fold_right]. fold (list_sum (map (fun v => if loneb s v then tri (i + length (upto v (d :: t))) else 0) t)).
  rewrite (list_sum_ext _ (fun v => if loneb s v then tri (S i + length (upto v t)) else 0)).
  2: { intros v Hv. cbn [upto]. destruct (teq_spec d v) as [->|_]; [contradiction|]. cbn [length]. now rewrite Nat.add_succ_r. }
  rewrite (IH d (S i) T N). unfold loneb. rewrite G. cbn [r_left r_right].
  destruct t as [|c t].
  - cbn [hd_error] in D. destruct D as [[-> ->]|[-> ->]]; cbn [upto]; rewrite teq_refl; cbn [length]; lia.
  - cbn [hd_error] in D. destruct D as [[-> ->]|[-> ->]]; cbn [length]; rewrite Nat.add_0_l; f_equal; lia.
Qed.
Lemma sum_spine s l : forall par i, spine s par l -> NoDup (rtags l) ->
  list_sum (map (fun v => if loneb s v then tri (i + length (rpath l v)) else 0) (rtags l)) = leafsum i (lens l).
Proof.
  induction l as [|[q t] l IH]; intros par i SP N; [reflexivity|]. cbn [spine] in SP. destruct SP as [[j G] [T SP]].
  rewrite rtags_cons in *. apply NoDup_cons_iff in N as [Nq N]. destruct (nodup_app _ _ N) as [N1 [N2 D]].
  cbn [map]. rewrite map_app. unfold list_sum at 1. cbn [fold_right]. fold (list_sum (map (fun v => if loneb s v then tri (i + length (rpath ((q, t) :: l) v)) else 0) t ++ map (fun v => if loneb s v then tri (i + length (rpath ((q, t) :: l) v)) else 0) (rtags l))).
  rewrite list_sum_app.
  rewrite (list_sum_ext (fun v => if loneb s v then tri (i + length (rpath ((q, t) :: l) v)) else 0) (fun v => if loneb s v then tri (S i + length (upto v t)) else 0) t).
  2: { intros v Hv. cbn [rpath]. destruct (teq_spec q v) as [->|_]; [exfalso; apply Nq; rewrite in_app_iff; now left|].
       rewrite (proj2 (ex_In v t) Hv). cbn [length]. now rewrite Nat.add_succ_r. }
  rewrite (list_sum_ext (fun v => if loneb s v then tri (i + length (rpath ((q, t) :: l) v)) else 0) (fun v => if loneb s v then tri (S i + length (rpath l v)) else 0) (rtags l)).
  2: { intros v Hv. cbn [rpath]. destruct (teq_spec q v) as [->|_]; [exfalso; apply Nq; rewrite in_app_iff; now right|].
       destruct (existsb (fun d => teq d v) t) eqn:X; [apply ex_In in X; exfalso; exact (D v X Hv)|]. cbn [length]. now rewrite Nat.add_succ_r. }
  rewrite (sum_tooth s t q (S i) T N1), (IH (Some q) (S i) SP N2). unfold loneb at 1. rewrite G. cbn [r_left r_right rpath]. rewrite teq_refl.
  change (lens ((q, t) :: l)) with (length t :: lens l). cbn [leafsum].
  destruct t as [|d t]; cbn [hd_error length]; (destruct l as [|[q' t'] l]; cbn [first_of lens map]).
  - lia.
  - lia.
  - replace (S i + S (length t)) with (i + 1 + S (length t)) by lia. lia.
  - replace (S i + S (length t)) with (i + 1 + S (length t)) by lia. cbn [leafsum]. lia.
Qed.
Lemma list_sum_perm (f : K -> nat) L L' : Permutation L L' -> list_sum (map f L) = list_sum (map f L').
Proof. induction 1; cbn [map]; unfold list_sum in *; cbn [fold_right] in *; lia. Qed.

Lemma leaf_upper a : forall i, leafsum i a <= length a * tri (i + tall_of a).
Proof.
  induction a as [|t r IH]; intros i; cbn [leafsum length tall_of]; [lia|]. specialize (IH (S i)).
  assert (M : tri (S i + tall_of r) <= tri (i + S (Nat.max t (tall_of r)))) by (unfold tri; nia).
  assert (X : match t, r with 0, [] => tri (i + 1) | 0, _ => 0 | _, _ => tri (i + 1 + t) end <= tri (i + S (Nat.max t (tall_of r)))).
  { destruct t as [|t]; [destruct r as [|? ?]|]; unfold tri; try nia. }
  nia.
Qed.
Lemma length_tall a : length a <= tall_of a.
Proof. induction a as [|t r IH]; cbn; lia. Qed.
(** [m] chains, each with [k] versions or more on the way to its end *)
Lemma leaf_lower k m r : forall i, 1 <= k -> m * tri k <= leafsum i (repeat k m ++ r).
Proof.
  induction m as [|m IH]; intros i Hk; cbn [repeat app leafsum Nat.mul]; [lia|]. specialize (IH (S i) Hk). destruct k as [|k]; [lia|].
  assert (tri (S k) <= tri (i + 1 + S k)) by (unfold tri; nia). lia.
Qed.
Lemma leaf_more i m a r : (forall t, In t a -> 1 <= t /\ tri m <= tri (1 + t)) -> length a * tri m <= leafsum i (a ++ r).
Proof.
  revert i; induction a as [|t a IH]; intros i H; cbn [app leafsum length Nat.mul]; [lia|].
  specialize (IH (S i) ltac:(intros u Hu; apply H; now right)). destruct (H t ltac:(now left)) as [A B]. destruct t as [|t]; [lia|].
  assert (tri (1 + S t) <= tri (i + 1 + S t)) by (unfold tri; nia). lia.
Qed.
Lemma phase_leaves n a : phaseR n a -> exists k, k * k <= n /\ n < (k + 1) * (k + 1) /\ k * tri k <= leafsum 0 a.
Proof.
  intros [[-> ->]|[_ [k [j [[H [-> ->]]|[H0 [H [-> ->]]]]]]]].
  - exists 1. cbn. lia.
  - exists k. split; [lia|split; [lia|]]. destruct (Nat.eq_dec k 1) as [->|K1]; [assert (j = 0) as -> by lia; cbn; lia|].
    unfold shapeA. rewrite <- (app_nil_r (_ ++ _)). replace k with (length (repeat k j ++ repeat (k - 1) (k - j))) at 1 by (rewrite app_length, !repeat_length; lia).
    apply leaf_more. intros t. rewrite in_app_iff. intros [I|I]; apply repeat_spec in I; subst t; (split; [lia|unfold tri; nia]).
  - exists k. split; [lia|split; [lia|]]. unfold shapeB. replace k with (length (repeat k k)) at 1 by apply repeat_length.
    apply leaf_more. intros t I. apply repeat_spec in I. subst t. split; [lia|unfold tri; nia].
Qed.

Theorem reevaluate_cost ts f : NoDup ts -> exists t c k, r_insert_all ts r_empty = Ok t /\
  c_reevaluate (with_states f t) = Ok (c, t) /\
  k * k <= length ts /\ length ts < (k + 1) * (k + 1) /\ k * k * (k + 1) <= 2 * c /\ 2 * c <= (2 * k + 1) * (2 * k + 1) * (2 * k + 2).
Proof.
  intros N. destruct ts as [|b0 ts0]; [exists r_empty, 0, 0; split; [reflexivity|split; [reflexivity|cbn; lia]]|].
  set (ts := b0 :: ts0) in *. destruct (insertions ts N ltac:(discriminate)) as [rt [l [I [G [P F]]]]]. exists rt.
  unfold with_states. set (s := map _ (r_index rt)). pose proof (alike_map (r_index rt) f) as A. fold s in A.
  pose proof (drop_reevaluate (mkT (r_root rt) s)) as D. unfold r_reevaluate in D. cbn [r_index r_root] in D.
  rewrite (recomputed (r_index rt) (good_sound rt l _ G) s A) in D. cbn [bind] in D. unfold drop in D.
  destruct (c_reevaluate (mkT (r_root rt) s)) as [[c t2]|] eqn:C; [|discriminate]. cbn [bind snd] in D. injection D as ->.
  destruct (phase_leaves _ _ P) as [k [B1 [B2 B3]]]. exists c, k. split; [exact I|split; [destruct rt; reflexivity|split; [exact B1|split; [exact B2|]]]].
  unfold c_reevaluate in C. cbn [r_index r_root] in C. destruct (c_reevaluate_loop (dkeys s) s) as [[c1 s1]|] eqn:Lp; [|discriminate]. cbn [bind fst snd] in C. injection C as <- _.
  assert (SL : same_links s (r_index rt)).
  { intros v. destruct (dget (r_index rt) v) as [m|] eqn:Gv.
    - destruct (alike_get (r_index rt) s v A m Gv) as [n [Gn Ln]]. rewrite Gn. cbn. congruence.
    - destruct (dget s v) as [n|] eqn:Gs; [|reflexivity]. exfalso. assert (Iv : In v (dkeys s)) by (apply dget_keys; congruence).
      rewrite (proj1 A) in Iv. apply keys_dget in Iv. contradiction. }
  pose proof (loop_steps (fun v => length (rpath l v)) (dkeys s) s c1 s1) as X. rewrite (proj1 A), (g_keys _ _ _ G) in X, Lp.
  specialize (X ltac:(intros v f0 p Hv U; rewrite (up_same s _ f0 (links_parents _ _ SL)) in U;
    pose proof (good_up rt l ts G v (wt l) Hv (le_n _)) as U2; rewrite (up_fuel _ _ _ _ _ _ U U2); apply rev_length) Lp).
  rewrite (list_sum_ext _ (fun v => if loneb (r_index rt) v then tri (0 + length (rpath l v)) else 0)) in X.
  2: { intros v _. now rewrite (lone_same _ s v SL). }
  rewrite <- (list_sum_perm _ _ _ (g_perm _ _ _ G)) in X. rewrite (sum_spine (r_index rt) l None 0 (g_spine _ _ _ G) (good_nd rt l ts G)) in X.
  destruct (phaseR_tall _ _ P) as [T1 T2]. pose proof (leaf_upper (lens l) 0) as Up. pose proof (length_tall (lens l)) as Lt. cbn [Nat.add] in Up.
  set (d := tall_of (lens l)) in *. set (m := length (lens l)) in *. assert (Hd : d <= 2 * k + 1) by nia. rewrite X. split; [unfold tri in B3; lia|].
  assert (m * tri d <= (2 * k + 1) * tri (2 * k + 1)) by (apply Nat.mul_le_mono; [lia|unfold tri; nia]). unfold tri in *. nia.
Qed.
Theorem reevaluate_not_linear (tag : nat -> K) : (forall i j, tag i = tag j -> i = j) -> forall w, exists ts t c,
  NoDup ts /\ r_insert_all ts r_empty = Ok t /\ c_reevaluate (r_invalidate t) = Ok (c, t) /\ w * length ts < c.
Proof.
  intros Inj w. set (k := 2 * w + 1). set (ts := map tag (seq 0 (k * k))).
  assert (N : NoDup ts) by (apply FinFun.Injective_map_NoDup; [intros i j; apply Inj|apply seq_NoDup]).
  destruct (reevaluate_cost ts (fun _ => (0, 0)) N) as [t [c [k' [I [C [A1 [A2 [A3 _]]]]]]]]. exists ts, t, c. split; [exact N|split; [exact I|split; [exact C|]]].
  assert (L : length ts = k * k) by (unfold ts; rewrite map_length, seq_length; reflexivity). rewrite L in *. assert (k' = k) as -> by nia. nia.
Qed.
Lemma c_insert_all_snoc ts a (t : rtree K) : c_insert_all (ts ++ [a]) t =
  (let* u := c_insert_all ts t in let* r := c_insert a (snd u) in Ok (fst u + fst r, fst (snd r))).
Proof.
  revert t; induction ts as [|b ts IH]; intros t; cbn [app c_insert_all].
  - cbn [bind snd fst]. destruct (c_insert a t) as [[k r]|]; cbn [bind fst snd]; [now rewrite Nat.add_0_r|reflexivity].
  - destruct (c_insert b t) as [[k r]|]; [|reflexivity]. cbn [bind fst snd]. rewrite IH. destruct (c_insert_all ts (fst r)) as [[k2 t2]|]; [|reflexivity].
    cbn [bind fst snd]. destruct (c_insert a t2) as [[k3 r3]|]; [|reflexivity]. cbn [bind fst snd]. now rewrite Nat.add_assoc.
Qed.
Theorem construction_cost ts : NoDup ts -> exists t c, r_insert_all ts r_empty = Ok t /\ c_insert_all ts r_empty = Ok (c, t) /\
  c * c <= length ts * length ts * (16 * length ts + 4).
Proof.
  intros N. assert (X : exists t c, r_insert_all ts r_empty = Ok t /\ c_insert_all ts r_empty = Ok (c, t) /\
    forall m, 16 * length ts + 4 < (m + 1) * (m + 1) -> c <= length ts * m).
  { induction ts as [|a ts IH] using rev_ind; [exists r_empty, 0; split; [reflexivity|split; [reflexivity|intros; lia]]|].
    assert (N' : NoDup ts) by (apply NoDup_remove in N as [A _]; now rewrite app_nil_r in A).
    destruct (IH N') as [t [c [I [C B]]]]. destruct (insert_cost ts a N) as [t0 [k [r [I0 [Ck [Ik Bk]]]]]]. rewrite I in I0. injection I0 as <-.
    exists (fst r), (c + k). rewrite insert_all_snoc, c_insert_all_snoc, I, C. cbn [bind fst snd]. rewrite Ik, Ck. cbn [bind fst snd].
    split; [reflexivity|split; [reflexivity|]]. intros m Hm. rewrite app_length in *. cbn [length] in *. assert (c <= length ts * m) by (apply B; lia). nia. }
  destruct X as [t [c [I [C B]]]]. exists t, c. split; [exact I|split; [exact C|]].
  pose proof (Nat.sqrt_spec' (16 * length ts + 4)) as [S1 S2]. set (m := Nat.sqrt _) in *. specialize (B m ltac:(lia)).
  transitivity ((length ts * m) * (length ts * m)); [nia|]. replace (length ts * m * (length ts * m)) with (length ts * length ts * (m * m)) by lia. apply Nat.mul_le_mono_l. exact S1.
Qed.
End R.
