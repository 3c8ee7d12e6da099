(** Proofs for C126: the tokens are replaced by numbers, equal ones by the same number. *)
From Coq Require Import Lia.
From Verif Require Import Base SpecSeq SpecDiff Automaton AutomatonProofs AutomatonLcs AutomatonCost Multi MultiProofs MultiRename
  Changesets ChangesetsProofs DiffLaws DiffProofs Merge MergeConsolidate MergeProofs MergeLaws SpecEqual EqualMaps.

Section Lists.
Context {A B : Type}.
Lemma slice_maps (f : A -> B) l p n : slice (map f l) p n = map f (slice l p n).
Proof. unfold slice; now rewrite <- firstn_map, skipn_map. Qed.
Lemma Forall2_maps {C D} (R : A -> B -> Prop) (f : C -> A) (g : D -> B) a b :
  Forall2 R (map f a) (map g b) <-> Forall2 (fun x y => R (f x) (g y)) a b.
Proof.
  revert b; induction a as [|x a IH]; intros [|y b]; cbn; split; intros H; inversion H; subst; constructor; auto; now apply IH.
Qed.
End Lists.

Section Equal.
Context {T : Type} {E : Teq T}.
Hypothesis Heq : @equality T E.

Lemma alike_refl (a : list T) : alike a a.
Proof. destruct Heq as [R _]. induction a as [|x a IH]; [constructor|]. constructor; [apply R|exact IH]. Qed.
Lemma alike_sym (a b : list T) : alike a b -> alike b a.
Proof. destruct Heq as [_ [S _]]. induction 1 as [|x y a b Hx H IH]; [constructor|]. constructor; [now apply S|exact IH]. Qed.
Lemma alike_trans (a b c : list T) : alike a b -> alike b c -> alike a c.
Proof.
  intros H; revert c; induction H as [|x y a b Hx H IH]; intros c Hc; inversion Hc; subst; constructor.
  - destruct Heq as [_ [_ Tr]]. eauto.
  - now apply IH.
Qed.
Lemma alike_length (a b : list T) : alike a b -> length a = length b.
Proof. induction 1; cbn; congruence. Qed.

(** ** Numbers for tokens *)
Record numbers (L : list T) := {
  nm_idx : Type;
  nm_tok : nm_idx -> T;
  nm_num : nm_idx -> nat;
  nm_eq : forall i j, (nm_num i =? nm_num j) = teq (nm_tok i) (nm_tok j);
  nm_all : forall a, incl a L -> exists i, a = map nm_tok i
}.
Lemma have_numbers (L : list T) : numbers L.
Proof.
  destruct L as [|d L].
  { refine (Build_numbers _ Empty_set (fun e => match e with end) (fun e => match e with end) _ _); [intros []|].
    intros a Ha. exists []. destruct a as [|x a]; [reflexivity|]. now destruct (Ha x (or_introl eq_refl)). }
  set (M := d :: L). set (g := fun i => nth i M d).
  set (f := fun i => match find (fun j => teq (g j) (g i)) (seq 0 (length M)) with Some j => j | None => length M end).
  destruct Heq as [R [S Tr]].
  assert (Hg : forall i, In (g i) M).
  { intros i. unfold g. destruct (nth_in_or_default i M d) as [H| ->]; [exact H|now left]. }
  assert (Hf : forall i, exists j, find (fun j => teq (g j) (g i)) (seq 0 (length M)) = Some j).
  { intros i. destruct (find _ (seq 0 (length M))) as [j|] eqn:Hj; [now exists j|exfalso].
    destruct (In_nth M (g i) d (Hg i)) as [k [Hk1 Hk2]].
    pose proof (find_none _ _ Hj k ltac:(apply in_seq; lia)) as Hn. cbv beta in Hn.
    change (nth k M d) with (g k) in Hk2. rewrite Hk2, R in Hn. discriminate. }
  refine (Build_numbers _ nat g f _ _).
  - intros i j. unfold f. destruct (Hf i) as [a Ha], (Hf j) as [b Hb].
    destruct (teq (g i) (g j)) eqn:Hij.
    + apply Nat.eqb_eq. rewrite Ha, Hb.
      assert (Hp : forall l, find (fun k => teq (g k) (g i)) l = find (fun k => teq (g k) (g j)) l).
      { induction l as [|k l IH]; [reflexivity|]. cbn [find]. rewrite IH.
        destruct (teq (g k) (g i)) eqn:H1, (teq (g k) (g j)) eqn:H2; try reflexivity.
        - rewrite (Tr _ _ _ H1 Hij) in H2. discriminate.
        - rewrite (Tr _ _ _ H2 (S _ _ Hij)) in H1. discriminate. }
      rewrite Hp in Ha. congruence.
    + apply Nat.eqb_neq. rewrite Ha, Hb. intros ->.
      apply find_some in Ha as [_ Ha]. apply find_some in Hb as [_ Hb].
      rewrite (Tr _ _ _ (S _ _ Ha) Hb) in Hij. discriminate.
  - induction a as [|x a IH]; intros Ha; [now exists []|].
    destruct IH as [i ->]; [intros y Hy; apply Ha; now right|].
    destruct (In_nth M x d (Ha x (or_introl eq_refl))) as [k [_ Hk]]. exists (k :: i). cbn. now rewrite <- Hk.
Qed.

Section Transfer.
Variable L : list T.
Variable N : numbers L.
Let g := nm_tok L N.
Let f := nm_num L N.
Definition num_teq : Teq (nm_idx L N) := fun i j => teq (g i) (g j).
Lemma tok_map i j : @teq T E (g i) (g j) = @teq (nm_idx L N) num_teq i j.
Proof. reflexivity. Qed.
Lemma num_map i j : @teq nat Teq_nat (f i) (f j) = @teq (nm_idx L N) num_teq i j.
Proof. apply (nm_eq L N). Qed.
Lemma alike_num a b : alike (map g a) (map g b) <-> map f a = map f b.
Proof.
  unfold alike. rewrite Forall2_maps.
  assert (H1 : forall x y, teq (g x) (g y) = true <-> f x = f y) by (intros x y; unfold g, f; rewrite <- (nm_eq L N); apply Nat.eqb_eq).
  revert b; induction a as [|x a IH]; intros [|y b]; cbn [map]; split; intros H; try discriminate; try now inversion H.
  - inversion H as [|? ? ? ? Hx Ha]; subst. apply H1 in Hx. apply IH in Ha. congruence.
  - injection H as Hx Ha. constructor; [now apply H1|now apply IH].
Qed.
Lemma items_num d d' : map (ditem_map f) d = map (ditem_map f) d' <->
  Forall2 item_alike (map (ditem_map g) d) (map (ditem_map g) d').
Proof.
  rewrite Forall2_maps. revert d'; induction d as [|x d IH]; intros [|y d']; cbn [map]; split; intros H; try discriminate; try now inversion H.
  - injection H as H1 H2. constructor; [|now apply IH].
    destruct x as [a|a b], y as [a'|a' b']; cbn in *; try discriminate; injection H1; intros; rewrite ?alike_num; auto.
  - inversion H as [|? ? ? ? H1 H2]; subst. f_equal; [|now apply IH].
    destruct x as [a|a b], y as [a'|a' b']; cbn in *; try contradiction; rewrite ?alike_num in H1; [congruence|].
    destruct H1 as [H1 H3]; rewrite H1, H3; reflexivity.
Qed.
Lemma slices_num a b p q n : alike (slice (map g a) p n) (slice (map g b) q n) <-> slice (map f a) p n = slice (map f b) q n.
Proof. rewrite !slice_maps. apply alike_num. Qed.

(** the model on tokens and on numbers *)
Notation EN := num_teq.
Notation I := (nm_idx L N).
Lemma lcs_num a b : @find_lcs T E (map g a) (map g b) = @find_lcs nat Teq_nat (map f a) (map f b).
Proof. rewrite (@find_lcs_maps I T EN E g tok_map), (@find_lcs_maps I nat EN Teq_nat f num_map). reflexivity. Qed.
Lemma substring_num a b : @find_substring T E (map g a) (map g b) = @find_substring nat Teq_nat (map f a) (map f b).
Proof. rewrite (@find_substring_maps I T EN E g tok_map), (@find_substring_maps I nat EN Teq_nat f num_map). reflexivity. Qed.
Lemma changeset_num a b : exists r, @find_changeset T E (map g a) (map g b) = rmap (cs_map g) r /\
  @find_changeset nat Teq_nat (map f a) (map f b) = rmap (cs_map f) r.
Proof.
  exists (@find_changeset I EN a b).
  split; [apply (@changeset_maps I T EN E g tok_map)|apply (@changeset_maps I nat EN Teq_nat f num_map)].
Qed.
Lemma diff_num a b : exists r, @diff_token_sequences T E (map g a) (map g b) = rmap (map (ditem_map g)) r /\
  @diff_token_sequences nat Teq_nat (map f a) (map f b) = rmap (map (ditem_map f)) r.
Proof.
  exists (@diff_token_sequences I EN a b).
  split; [apply (@diff_maps I T EN E g tok_map)|apply (@diff_maps I nat EN Teq_nat f num_map)].
Qed.
Lemma merge_num k a b c : exists r, @merge_token_sequence T E k (map g a) (map g b) (map g c) = rmap (map (ditem_map g)) r /\
  @merge_token_sequence nat Teq_nat k (map f a) (map f b) (map f c) = rmap (map (ditem_map f)) r.
Proof.
  exists (@merge_token_sequence I EN k a b c).
  split; [apply (@merge_map I T EN E g tok_map)|apply (@merge_map I nat EN Teq_nat f num_map)].
Qed.
Definition mt {A B} (h : A -> B) (x : mtok A) : mtok B := match x with Tok t => Tok (h t) | Sep i => Sep i end.
Lemma multi_maps {A B} (EA : Teq A) (EB : Teq B) (h : A -> B) (Hh : forall x y, teq (h x) (h y) = teq x y) ss :
  find_lcs_multi (map (map h) ss) = find_lcs_multi ss.
Proof.
  unfold find_lcs_multi.
  assert (Hm : map (map (@Tok B)) (map (map h) ss) = map (map (mt h)) (map (map (@Tok A)) ss)).
  { rewrite !map_map. apply map_ext. intros s. rewrite !map_map. reflexivity. }
  rewrite Hm. apply (find_lcs_multiple_map (mt h) (fun _ => True)).
  - intros [x|i] [y|j] _ _; cbn; try reflexivity. apply Hh.
  - reflexivity.
  - now intros [x|i].
  - now apply Forall_forall.
Qed.
Lemma multi_num ss : @find_lcs_multi T E (map (map g) ss) = @find_lcs_multi nat Teq_nat (map (map f) ss).
Proof. rewrite (multi_maps EN E g tok_map), (multi_maps EN Teq_nat f num_map). reflexivity. Qed.
End Transfer.

Lemma numbers_two (a b : list T) : exists L (N : numbers L) i j, a = map (nm_tok L N) i /\ b = map (nm_tok L N) j.
Proof.
  exists (a ++ b), (have_numbers (a ++ b)).
  destruct (nm_all _ (have_numbers (a ++ b)) a) as [i Hi]; [apply incl_appl, incl_refl|].
  destruct (nm_all _ (have_numbers (a ++ b)) b) as [j Hj]; [apply incl_appr, incl_refl|].
  exists i, j. auto.
Qed.
Lemma numbers_lists (ss : list (list T)) : exists L (N : numbers L) is, ss = map (map (nm_tok L N)) is.
Proof.
  exists (concat ss), (have_numbers (concat ss)). set (l := concat ss). assert (H : forall s, In s ss -> incl s l).
  { intros s Hs x Hx. apply in_concat. eauto. }
  generalize (have_numbers l). clearbody l. intros N. induction ss as [|s ss IH]; [now exists []|].
  destruct IH as [is ->]; [intros s' Hs; apply H; now right|].
  destruct (nm_all _ N s) as [i ->]; [apply H; now left|]. now exists (i :: is).
Qed.

(** ** find_lcs *)
Theorem find_lcs_alike (a b : list T) : exists pa pb l, find_lcs a b = Some (pa, pb, l) /\
  pa + l <= length a /\ pb + l <= length b /\ alike (slice a pa l) (slice b pb l) /\
  (forall qa qb k, qa + k <= length a -> qb + k <= length b -> alike (slice a qa k) (slice b qb k) -> k <= l) /\
  (l = 0 -> pa = 0 /\ pb = 0) /\
  (forall qa qb, qa + l <= length a -> qb + l <= length b -> alike (slice a qa l) (slice b qb l) -> pb <= qb) /\
  (forall qa, qa + l <= length a -> alike (slice a qa l) (slice b pb l) -> pa <= qa).
Proof.
  destruct (numbers_two a b) as [L [N [i [j [-> ->]]]]].
  - rewrite lcs_num, !map_length.
    destruct (find_lcs_longest (map (nm_num L N) i) (map (nm_num L N) j)) as [pa [pb [l [H [H1 [H2 [H3 H4]]]]]]].
    destruct (find_lcs_first (map (nm_num L N) i) (map (nm_num L N) j)) as [pa' [pb' [l' [H' [H5 [H6 H7]]]]]].
    rewrite H in H'. injection H' as <- <- <-. rewrite !map_length in *.
    exists pa, pb, l. split; [exact H|]. split; [exact H1|]. split; [exact H2|]. split; [now apply slices_num|].
    split; [intros; apply (H4 qa qb); auto; now apply slices_num|]. split; [exact H5|].
    split; [intros; apply (H6 qa qb); auto; now apply slices_num|intros; apply H7; auto; now apply slices_num].
Qed.
(** ** find_substring *)
Theorem find_substring_alike (s w : list T) : exists ps, find_substring s w = Some ps /\
  strictly_increasing ps /\ (forall p, In p ps <-> occurs_like s w p).
Proof.
  destruct (numbers_two s w) as [L [N [i [j [-> ->]]]]].
  - rewrite substring_num. destruct (find_substring_ok (map (nm_num L N) i) (map (nm_num L N) j)) as [ps [H [H1 H2]]].
    exists ps. split; [exact H|]. split; [exact H1|]. intros p. rewrite H2. unfold occurs_like, occurs_at. rewrite !map_length, !slice_maps, alike_num. reflexivity.
Qed.
(** ** find_lcs_multiple *)
Lemma occurs_num L (N : numbers L) s w p :
  occurs_like (map (nm_tok L N) s) (map (nm_tok L N) w) p <-> occurs_at (map (nm_num L N) s) (map (nm_num L N) w) p.
Proof. unfold occurs_like, occurs_at. rewrite !map_length, !slice_maps, alike_num. reflexivity. Qed.
Lemma occurs_alike s w w' p : alike w w' -> occurs_like s w p -> occurs_like s w' p.
Proof. intros H [H1 H2]. unfold occurs_like. rewrite <- (alike_length _ _ H). split; [exact H1|]. eapply alike_trans; eauto. Qed.
Theorem find_lcs_multi_alike (ss : list (list T)) : ss <> [] -> exists ps l w,
  find_lcs_multi ss = Some (ps, Some l) /\ length ps = length ss /\ length w = l /\
  (forall k s p, nth_error ss k = Some s -> nth_error ps k = Some p ->
     occurs_like s w p /\ forall q, occurs_like s w q -> p <= q) /\
  (forall w', (forall s, In s ss -> exists p, occurs_like s w' p) -> length w' <= l).
Proof.
  intros Hs. destruct (numbers_lists ss) as [L [N [is ->]]]. set (g := nm_tok L N). set (f := nm_num L N).
  rewrite multi_num. fold f. assert (Hs' : map (map f) is <> []) by (destruct is; [now elim Hs|discriminate]).
  destruct (find_lcs_multi_ok (map (map f) is) Hs') as [ps [l [w [H1 [H2 [H3 [H4 H5]]]]]]]. rewrite map_length in H2.
  destruct is as [|i is]; [now elim Hs|]. clear Hs Hs'.
  destruct ps as [|p0 ps]; [discriminate|].
  destruct (H4 0 (map f i) p0 eq_refl eq_refl) as [[Hw1 Hw2] _]. rewrite slice_maps in Hw2.
  set (v := slice i p0 (length w)) in Hw2.
  exists (p0 :: ps), l, (map g v). split; [exact H1|]. rewrite map_length. split; [exact H2|].
  split; [rewrite map_length; rewrite <- H3, <- Hw2, map_length; reflexivity|]. split.
  - intros k s p Hk Hp. rewrite nth_error_map in Hk. destruct (nth_error (i :: is) k) as [s'|] eqn:Hk'; [|discriminate].
    injection Hk as <-. destruct (H4 k (map f s') p) as [A B]; [now rewrite nth_error_map, Hk'|exact Hp|].
    rewrite <- Hw2 in A, B. split; [now apply occurs_num|]. intros q Hq. apply B. now apply occurs_num.
  - intros w' Hw'. destruct (Hw' (map g i) (or_introl eq_refl)) as [q [Q1 Q2]]. rewrite slice_maps in Q2.
    set (v' := slice i q (length w')) in Q2. pose proof (alike_length _ _ Q2) as Ql. rewrite map_length in Ql. rewrite <- Ql.
    specialize (H5 (map f v')). rewrite map_length in H5. apply H5. intros s Hin. apply in_map_iff in Hin as [s' [<- Hin]].
    destruct (Hw' (map g s')) as [r Hr]; [now apply in_map|]. exists r. apply occurs_num.
    eapply occurs_alike; [apply alike_sym; exact Q2|exact Hr].
Qed.

(** ** Patches and diffs *)
Lemma numbers_many (ls : list (list T)) : exists L (N : numbers L), forall l, In l ls -> exists i, l = map (nm_tok L N) i.
Proof.
  exists (concat ls), (have_numbers (concat ls)). intros l Hl. apply nm_all. intros x Hx. apply in_concat. eauto.
Qed.
Theorem patch_alike (o m : list T) : exists c, find_changeset o m = Ok c /\
  alike (apply_forward (as_change_stream c) o) m /\ alike (apply_reverse (as_change_stream c) m) o /\
  alike (old_apply_forward c o) m /\ alike (old_apply_reverse c m) o.
Proof.
  destruct (numbers_two o m) as [L [N [i [j [-> ->]]]]]. set (g := nm_tok L N). set (f := nm_num L N).
  destruct (changeset_num L N i j) as [r [H1 H2]]. fold g in H1. fold f in H2.
  destruct (forward_patch (map f i) (map f j)) as [c [Hc [F1 [_ F2]]]].
  destruct (reverse_patch (map f i) (map f j)) as [c' [Hc' [R1 [_ R2]]]].
  rewrite Hc in Hc'. injection Hc' as <-. rewrite Hc in H2. destruct r as [r|e]; [|discriminate]. injection H2 as ->.
  cbn [rmap] in H1. exists (cs_map g r). split; [exact H1|].
  rewrite as_change_stream_maps, apply_forward_maps in F1. rewrite as_change_stream_maps, apply_reverse_maps in R1.
  rewrite old_forward_maps in F2. rewrite old_reverse_maps in R2.
  rewrite as_change_stream_maps, apply_forward_maps, apply_reverse_maps, old_forward_maps, old_reverse_maps.
  unfold g. rewrite !alike_num. fold f. auto.
Qed.
Lemma pyslice_split {X} (l : list X) s e co cl : co + cl <= length (pyslice l s e) ->
  pyslice l s e = pyslice l s (Some (s + co)) ++ pyslice l (s + co) (Some (s + co + cl)) ++ pyslice l (s + co + cl) e.
Proof.
  assert (S : forall (x : list X) a b, skipn (a + b) x = skipn b (skipn a x)).
  { induction x as [|y x IH]; intros [|a] b; cbn [skipn plus]; try reflexivity; [now destruct b|apply IH]. }
  unfold pyslice. rewrite <- !Nat.add_assoc, !S. set (x := skipn s l).
  replace (s + co - s) with co by lia. replace (s + (co + cl) - (s + co)) with cl by lia.
  destruct e as [e|]; intros H.
  - rewrite firstn_length in H.
    assert (Hx : forall (y : list X) a n, a <= n -> firstn n y = firstn a y ++ firstn (n - a) (skipn a y)).
    { induction y as [|z y IH]; intros [|a] [|n] Ha; cbn; try reflexivity; try lia; [now destruct (n - a)|]. f_equal. apply IH; lia. }
    rewrite (Hx x co (e - s)) by lia. f_equal. rewrite (Hx (skipn co x) cl (e - s - co)) by lia.
    f_equal. f_equal. lia.
  - rewrite (firstn_skipn cl (skipn co x)). now rewrite firstn_skipn.
Qed.
Lemma before_exact d : forall (o m : list T) os ms c, find_changeset_lim d o m os ms = Ok c ->
  diff_before (as_diff_stream o c) = sl o os.
Proof.
  induction d as [|d IH]; intros o m os ms c; [discriminate|]; cbn [find_changeset_lim].
  destruct (find_lcs_alike (sl o os) (sl m ms)) as [co [cm [cl [-> [H1 _]]]]].
  destruct (cl =? 0).
  - intros H; injection H as <-. cbn [as_diff_stream]. destruct (nonempty (sl m ms) || nonempty (sl o os)) eqn:Hn.
    + cbn. apply app_nil_r.
    + apply orb_false_iff in Hn as [_ Hn]. now destruct (sl o os).
  - destruct (find_changeset_lim d o m _ _) as [p|e] eqn:Hp; [|discriminate]. cbn [bind].
    destruct (find_changeset_lim d o m _ _) as [s|e] eqn:Hq in |- *; [|discriminate]. cbn [bind].
    intros H; injection H as <-. apply IH in Hp. apply IH in Hq. cbn [as_diff_stream].
    unfold diff_before in *. rewrite !flat_map_app, Hp, Hq. cbn [flat_map]. rewrite app_nil_r.
    destruct os as [s0 e0]; cbn [fst snd sl] in *. symmetry. apply (pyslice_split o s0 e0 co cl). exact H1.
Qed.
Theorem diff_alike (o m : list T) : exists d, diff_token_sequences o m = Ok d /\
  diff_before d = o /\ alike (diff_after d) m /\ alternating d /\
  (forall t, In (DText t) d -> t <> []) /\
  (forall a b, In (DChange a b) d -> ~ (a = [] /\ b = []) /\ forall x y, In x a -> In y b -> teq x y = false).
Proof.
  destruct (find_changeset_lim (S (length o)) o m (0, None) (0, None)) as [c0|e0] eqn:Hb.
  2:{ destruct (patch_alike o m) as [c [Hc _]]. unfold find_changeset in Hc. congruence. }
  pose proof (before_exact _ _ _ _ _ _ Hb) as Hbe. change (sl o (0, None)) with o in Hbe.
  assert (Hd : diff_token_sequences o m = Ok (as_diff_stream o c0)).
  { unfold diff_token_sequences, find_changeset. rewrite Hb. reflexivity. }
  rewrite Hd. exists (as_diff_stream o c0). split; [reflexivity|]. split; [exact Hbe|].
  revert Hd. generalize (as_diff_stream o c0). intros d. clear Hb Hbe c0. intros Hd.
  destruct (numbers_two o m) as [L [N [i [j [-> ->]]]]]. set (g := nm_tok L N) in *. set (f := nm_num L N).
  destruct (diff_num L N i j) as [r [H1 H2]]. fold g in H1. fold f in H2.
  rewrite Hd in H1. destruct r as [d0|e]; [|discriminate]. cbn [rmap] in H1, H2. injection H1 as ->.
  destruct (diff_accounts (map f i) (map f j)) as [d' [D0 [_ D2]]].
  destruct (diff_normal (map f i) (map f j)) as [d'' [D3 [Da Di]]].
  rewrite H2 in D0, D3. injection D0 as <-. injection D3 as <-.
  assert (Af : forall X (h : nm_idx L N -> X) d0, diff_after (map (ditem_map h) d0) = map h (diff_after d0)).
  { clear. intros X h d0. unfold diff_after. induction d0 as [|[t|a b] d0 IH]; cbn; [reflexivity| |]; rewrite map_app; f_equal; exact IH. }
  rewrite Af in D2 |- *. split; [unfold g; apply alike_num; exact D2|]. clear D2 Af Hd H2.
  rewrite Forall_map, Forall_forall in Di. split; [|split].
  - intros k x y Hx Hy. rewrite nth_error_map in Hx, Hy.
    destruct (nth_error d0 k) as [x0|] eqn:Kx; [|discriminate]. destruct (nth_error d0 (S k)) as [y0|] eqn:Ky; [|discriminate].
    injection Hx as <-. injection Hy as <-.
    destruct (Da k (ditem_map f x0) (ditem_map f y0)) as [[[t Ht] [a [b Hab]]]|[[a [b Hab]] [t Ht]]];
      [now rewrite nth_error_map, Kx|now rewrite nth_error_map, Ky| |]; destruct x0, y0; try discriminate; cbn; [left|right];
      split; unfold is_text, is_change; eauto.
  - intros t Ht. apply in_map_iff in Ht as [[t0|a b] [Ht Hin]]; [|discriminate]. injection Ht as <-.
    specialize (Di _ Hin). cbn in Di. destruct t0; [now elim Di|discriminate].
  - intros a b Hab. apply in_map_iff in Hab as [[t0|a0 b0] [Hab Hin]]; [discriminate|]. injection Hab as <- <-.
    specialize (Di _ Hin). cbn in Di. destruct Di as [Dn Dd]. split.
    + intros [A B]. apply Dn. destruct a0, b0; try discriminate. auto.
    + intros x y Hx Hy. apply in_map_iff in Hx as [u [<- Hu]]. apply in_map_iff in Hy as [v [<- Hv]].
      unfold g. rewrite <- (nm_eq L N). apply Nat.eqb_neq. fold f. intros Huv. apply (Dd (f u)); [now apply in_map|].
      rewrite Huv. now apply in_map.
Qed.

(** ** Merges; equal arguments *)
Lemma alike_numbers L (N : numbers L) i j : alike (map (nm_tok L N) i) (map (nm_tok L N) j) -> map (nm_num L N) i = map (nm_num L N) j.
Proof. apply alike_num. Qed.
Lemma results_num L (N : numbers L) r r' : rmap (map (ditem_map (nm_num L N))) r = rmap (map (ditem_map (nm_num L N))) r' ->
  results_alike (rmap (map (ditem_map (nm_tok L N))) r) (rmap (map (ditem_map (nm_tok L N))) r').
Proof.
  destruct r as [d|e], r' as [d'|e']; cbn; intros H; try discriminate; injection H as H; [|exact H]. now apply items_num.
Qed.
Theorem diff_congruence (o m o' m' : list T) : alike o o' -> alike m m' ->
  results_alike (diff_token_sequences o m) (diff_token_sequences o' m').
Proof.
  intros Ho Hm. destruct (numbers_many [o; m; o'; m']) as [L [N HN]].
  destruct (HN o) as [i ->]; [now left|]. destruct (HN m) as [j ->]; [right; now left|].
  destruct (HN o') as [i' ->]; [right; right; now left|]. destruct (HN m') as [j' ->]; [right; right; right; now left|].
  apply alike_numbers in Ho, Hm.
  destruct (diff_num L N i j) as [r [-> H]]. destruct (diff_num L N i' j') as [r' [-> H']].
  apply results_num. rewrite <- H, <- H', Ho, Hm. reflexivity.
Qed.
Theorem merge_congruence k (p b0 b1 p' b0' b1' : list T) : alike p p' -> alike b0 b0' -> alike b1 b1' ->
  results_alike (merge_token_sequence k p b0 b1) (merge_token_sequence k p' b0' b1').
Proof.
  intros Hp H0 H1. destruct (numbers_many [p; b0; b1; p'; b0'; b1']) as [L [N HN]].
  destruct (HN p) as [i ->]; [now left|]. destruct (HN b0) as [j ->]; [right; now left|]. destruct (HN b1) as [l ->]; [right; right; now left|].
  destruct (HN p') as [i' ->]; [do 3 right; now left|]. destruct (HN b0') as [j' ->]; [do 4 right; now left|].
  destruct (HN b1') as [l' ->]; [do 5 right; now left|].
  apply alike_numbers in Hp, H0, H1.
  destruct (merge_num L N k i j l) as [r [-> H]]. destruct (merge_num L N k i' j' l') as [r' [-> H']].
  apply results_num. rewrite <- H, <- H', Hp, H0, H1. reflexivity.
Qed.
Lemma merge_trivial k (p b0 b1 b : list T) : 
  (forall x0 x1 xp xb : list nat, (alike p b0 -> xp = x0) -> (alike p b1 -> xp = x1) -> (alike b0 b1 -> x0 = x1) ->
     (alike b b0 -> xb = x0) -> (alike b b1 -> xb = x1) -> merge_token_sequence k xp x0 x1 = Ok [DText xb]) ->
  exists t, merge_token_sequence k p b0 b1 = Ok [DText t] /\ alike t b.
Proof.
  intros Hm. destruct (numbers_many [p; b0; b1; b]) as [L [N HN]].
  destruct (HN p) as [i ->]; [now left|]. destruct (HN b0) as [j ->]; [right; now left|].
  destruct (HN b1) as [l ->]; [right; right; now left|]. destruct (HN b) as [n ->]; [do 3 right; now left|].
  destruct (merge_num L N k i j l) as [r [-> H]].
  rewrite (Hm (map (nm_num L N) j) (map (nm_num L N) l) (map (nm_num L N) i) (map (nm_num L N) n)) in H by (apply alike_numbers).
  destruct r as [[|[t|a c] [|]]|e]; try discriminate. cbn in H. injection H as H.
  exists (map (nm_tok L N) t). split; [reflexivity|]. now apply alike_num.
Qed.
Theorem merge_unchanged0 k (p p' b : list T) : alike p p' -> exists t, merge_token_sequence k p p' b = Ok [DText t] /\ alike t b.
Proof.
  intros H. apply merge_trivial. intros x0 x1 xp xb A _ _ _ D. rewrite (A H), (D (alike_refl b)). apply merge_left.
Qed.
Theorem merge_unchanged1 k (p p' b : list T) : alike p p' -> exists t, merge_token_sequence k p b p' = Ok [DText t] /\ alike t b.
Proof.
  intros H. apply merge_trivial. intros x0 x1 xp xb _ B _ D _. rewrite (B H), (D (alike_refl b)). apply merge_right.
Qed.
Theorem merge_equal k (p b b' : list T) : alike b b' -> exists t, merge_token_sequence k p b b' = Ok [DText t] /\ alike t b.
Proof.
  intros H. apply merge_trivial. intros x0 x1 xp xb _ _ C D _. rewrite <- (C H), (D (alike_refl b)). apply merge_same.
Qed.
(** ** common_prefix_length *)
Theorem prefix_alike (a b : list T) : let n := common_prefix_length a b in
  n <= length a /\ n <= length b /\ alike (firstn n a) (firstn n b) /\
  forall m, m <= length a -> m <= length b -> alike (firstn m a) (firstn m b) -> m <= n.
Proof.
  cbn zeta. revert b. induction a as [|x a IH]; intros [|y b]; cbn [common_prefix_length length]; try (repeat split; cbn; try constructor; lia).
  destruct (IH b) as [H1 [H2 [H3 H4]]]. destruct (teq x y) eqn:Hxy.
  - split; [lia|]. split; [lia|]. split; [cbn; constructor; assumption|].
    intros [|m] Ha Hb Hm; [lia|]. cbn in Hm. inversion Hm; subst. apply le_n_S, H4; auto; lia.
  - split; [lia|]. split; [lia|]. split; [constructor|].
    intros [|m] Ha Hb Hm; [lia|]. cbn in Hm. inversion Hm; subst. congruence.
Qed.
End Equal.
