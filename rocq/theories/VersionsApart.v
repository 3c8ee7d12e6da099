(** Whatever happens to the entries of some lines and to their nodes of the tree, the others can
    be used (C134). *)
From Coq Require Import ZArith Lia.
From Verif Require Import Base Changesets Serialize Tokenizers SpecTokenizers Tree SpecTree TreeProofs
  Versions SpecVersions SpecLineage VersionsInv VersionsProofs VersionsMore VersionsFrame VersionsLineage VersionsDamage
  DbTree DbTreeProofs SpecDb DbVersions SpecElsewhere VersionsElsewhere.
Local Open Scope nat_scope.

(** two trees that cannot be told apart outside of [X] *)
Record tree_frame {K : Type} {E : Teq K} (TR : tree_impl K) (X : K -> Prop) := {
  like : tree_t TR -> tree_t TR -> Prop;
  like_add : forall t t' k b, like t t' -> ~ X k ->
    like (fst (tr_add TR k b t)) (fst (tr_add TR k b t')) /\ snd (tr_add TR k b t') = snd (tr_add TR k b t);
  like_move : forall t t' k q, like t t' -> ~ X k -> ~ X q ->
    like (fst (tr_change_parent TR k q t)) (fst (tr_change_parent TR k q t')) /\
    snd (tr_change_parent TR k q t') = snd (tr_change_parent TR k q t);
  like_path : forall t t' k, like t t' -> ~ X k -> tr_path_to TR t' k = tr_path_to TR t k /\
    forall p, tr_path_to TR t k = Ok (Some p) -> forall u, In u p -> ~ X u;
  like_split : forall t t' k, like t t' -> ~ X k -> tr_get_split TR t' k = tr_get_split TR t k /\
    forall sp p, tr_get_split TR t k = Ok (sp, p) -> ~ X sp /\ forall u, In u p -> ~ X u
}.
Arguments like {K E TR X}.

Section Sim.
Context {K : Type} {E : Teq K} {O : TeqOk K}.
Variable re_w : Z -> bool.
Variable tk : tkind.
Variables HS DS : store K.
Variable TR : tree_impl K.
Variable HL : store_law HS.
Variable DL : store_law DS.
Variable X : K -> Prop.
Variable F : tree_frame TR X.
Notation vst := (@vstate K HS DS TR).
Notation vm := (vm HS DS TR).
Notation vbind := (vbind HS DS TR).
Notation look := (look HS DS TR).
Notation vret := (vret HS DS TR).
Notation run := (run re_w tk HS DS TR).

Record alike (v w : vst) : Prop := {
  k_tree : like F (tree v) (tree w);
  k_fine : (fine HL (heads v) /\ fine DL (diffs v)) /\ fine HL (heads w) /\ fine DL (diffs w);
  k_heads : forall u, ~ X u -> view HL (heads w) u = view HL (heads v) u;
  k_diffs : forall u, ~ X u -> view DL (diffs w) u = view DL (diffs v) u
}.
Definition so {A} (v w : list vst * (vst * res A)) : Prop := alike (fst (snd v)) (fst (snd w)) /\ snd (snd v) = snd (snd w).
Definition sims {A} (m : vm A) : Prop := forall v w, alike v w -> so (m v) (m w).

Lemma so_bind {A B} (m : vm A) (f : A -> vm B) v w : so (m v) (m w) ->
  (forall a, snd (snd (m v)) = Ok a -> alike (fst (snd (m v))) (fst (snd (m w))) -> so (f a (fst (snd (m v)))) (f a (fst (snd (m w))))) ->
  so (vbind m f v) (vbind m f w).
Proof.
  unfold Versions.vbind. destruct (m v) as [t1 [v1 r1]], (m w) as [t2 [w1 r2]]. cbn. intros [A1 R] H. cbn in *. subst r2.
  destruct r1 as [a|e]; [|split; [exact A1|reflexivity]]. specialize (H a eq_refl A1).
  destruct (f a v1) as [? ?], (f a w1) as [? ?]. exact H.
Qed.
Lemma sims_bind {A B} (m : vm A) (f : A -> vm B) : sims m -> (forall a, sims (f a)) -> sims (vbind m f).
Proof. intros Hm Hf v w A1. apply so_bind; [now apply Hm|]. intros a _ A2. now apply Hf. Qed.
Lemma sims_ret {A} (a : A) : sims (vret a).
Proof. intros v w A1. split; [exact A1|reflexivity]. Qed.
Lemma sims_look {A} (f : vst -> res A) : (forall v w, alike v w -> f w = f v) -> sims (look f).
Proof. intros H v w A1. split; [exact A1|]. cbn. symmetry. now apply H. Qed.
Lemma sims_tree (f : tree_t TR -> tree_t TR * res unit) :
  (forall t t', like F t t' -> like F (fst (f t)) (fst (f t')) /\ snd (f t') = snd (f t)) -> sims (on_tree HS DS TR f).
Proof.
  intros H v w A1. unfold on_tree. destruct (H _ _ (k_tree _ _ A1)) as [H1 H2]. destruct (f (tree v)) as [t r], (f (tree w)) as [t' r'].
  cbn in H1, H2. subst r'. split; [|reflexivity]. cbn. split; cbn; [exact H1|apply A1|apply A1|apply A1].
Qed.
Lemma sims_set_head k b : sims (set_head HS DS TR k b).
Proof.
  intros v w A1. split; [|reflexivity]. cbn. destruct A1 as [A1 [[A2 A3] [A4 A5]] A6 A7]. split; cbn; auto.
  - repeat split; auto; now apply fine_set.
  - intros u Hu. rewrite !view_set. destruct (teq k u); auto.
Qed.
Lemma sims_set_diff k b : sims (set_diff HS DS TR k b).
Proof.
  intros v w A1. split; [|reflexivity]. cbn. destruct A1 as [A1 [[A2 A3] [A4 A5]] A6 A7]. split; cbn; auto.
  - repeat split; auto; now apply fine_set.
  - intros u Hu. rewrite !view_set. destruct (teq k u); auto.
Qed.
Lemma sims_del_head k : ~ X k -> sims (vbind (look (fun v => Ok (s_mem HS (heads v) k))) (fun is_head => if is_head then del_head HS DS TR k else vret tt)).
Proof.
  intros Hk v w A1. pose proof A1 as [B1 [[B2 B3] [B4 B5]] B6 B7].
  unfold Versions.vbind, Versions.look. rewrite !(view_mem _ HL), (B6 k Hk). destruct (view HL (heads v) k) as [c|] eqn:Q; [|split; [exact A1|reflexivity]].
  destruct (view_del _ HL (heads v) k B2 ltac:(congruence)) as (d & D1 & D2 & D3).
  destruct (view_del _ HL (heads w) k B4 ltac:(rewrite (B6 k Hk); congruence)) as (d' & D1' & D2' & D3').
  unfold del_head. rewrite D1, D1'. split; [|reflexivity]. cbn. split; cbn; auto. intros u Hu. rewrite D3, D3'. destruct (teq k u); auto.
Qed.
Lemma sims_edge q c cs : ~ X c -> ~ X q -> sims (add_edge HS DS TR q c cs).
Proof.
  intros Hc Hq. unfold add_edge. apply sims_bind; [now apply sims_look|]. intros d. apply sims_bind; [apply sims_set_diff|]. intros [].
  apply sims_bind; [apply sims_tree; intros t t' L; now apply like_move|]. intros []. now apply sims_del_head.
Qed.
Lemma retrieve_alike v w path : alike v w -> (forall u, In u path -> ~ X u) ->
  retrieve_using_path re_w tk HS DS TR w path = retrieve_using_path re_w tk HS DS TR v path.
Proof.
  intros A1 Hp. destruct path as [|r path]; [reflexivity|]. cbn [retrieve_using_path]. rewrite !(view_get _ HL), (k_heads _ _ A1) by (apply Hp; now left).
  destruct (view HL (heads v) r) as [c|]; [|reflexivity]. cbn [bind]. destruct (encode re_w tk new_tokenizer (CBytes c)) as [st [toks|e]]; [|reflexivity]. cbn [bind].
  apply loop_same. intros u Hu. rewrite !(view_get _ DL), (k_diffs _ _ A1); [reflexivity|]. apply Hp. now right.
Qed.
Lemma get_alike v w t : alike v w -> ~ X t -> get re_w tk HS DS TR w t = get re_w tk HS DS TR v t.
Proof.
  intros A1 Ht. unfold get. destruct (like_path _ _ F _ _ t (k_tree _ _ A1) Ht) as [-> Hp].
  destruct (tr_path_to TR (tree v) t) as [[[|r p]|]|e]; try reflexivity. cbn [bind].
  now rewrite (retrieve_alike v w (r :: p) A1 (Hp _ eq_refl)).
Qed.
Lemma sims_add t b base : ~ X t -> (forall x, base = Some x -> ~ X x) -> sims (add re_w tk HS DS TR t b base).
Proof.
  intros Ht Hb. unfold add. apply sims_bind; [apply sims_set_head|]. intros []. apply sims_bind; [apply sims_tree; intros u u' L; now apply like_add|].
  intros []. destruct base as [x|]; [|apply sims_ret]. specialize (Hb x eq_refl). intros v w A1.
  destruct (like_split _ _ F _ _ x (k_tree _ _ A1) Hb) as [S1 S2].
  apply so_bind; [split; [exact A1|cbn; now rewrite S1]|]. intros [sp p] Q A4. cbn [look snd fst tree] in Q. destruct (S2 sp p Q) as [Hsp Hp]. cbn [fst snd].
  refine (sims_bind _ _ _ _ _ _ A4).
  - destruct (teq sp x); [apply sims_ret|]. apply sims_bind; [apply sims_look; intros v1 w1 A5; now apply retrieve_alike|]. intros sv.
    apply sims_bind; [now apply sims_look|]. intros cs. apply sims_bind; [now apply sims_edge|]. intros [].
    apply sims_tree. intros u u' L. now apply like_move.
  - intros []. apply sims_bind; [apply sims_look; intros v1 w1 A5; now rewrite !(view_get _ HL), (k_heads _ _ A5)|]. intros hv.
    apply sims_bind; [now apply sims_look|]. intros cs. now apply sims_edge.
Qed.
Lemma add_alike v w a : alike v w -> away X a ->
  alike (add_state re_w tk HS DS TR v a) (add_state re_w tk HS DS TR w a) /\
  add_result re_w tk HS DS TR w a = add_result re_w tk HS DS TR v a.
Proof.
  intros A1 [Ha Hb]. destruct a as [[t b] base]. destruct (sims_add t b base Ha Hb v w A1) as [A2 R]. split; [exact A2|now symmetry].
Qed.
Lemma run_alike g : forall v w, alike v w -> Forall (away X) g -> alike (run v g) (run w g).
Proof.
  induction g as [|a g IH]; intros v w A1 Aw; [exact A1|]. inversion Aw as [|? ? Aa Ag]; subst. apply IH; [|exact Ag]. now apply add_alike.
Qed.

(** after a history *)
Variable TL : tree_law TR.
Definition goes_on_away (h : list (adding K)) (w : vst) : Prop :=
  forall g, fresh tk (h ++ g) -> Forall (away X) g -> let w' := run w g in let v' := run v_empty (h ++ g) in
  (forall t b base, In (t, b, base) (h ++ g) -> ~ X t -> get re_w tk HS DS TR w' t = Ok (Some b)) /\
  (forall t, ~ X t -> get re_w tk HS DS TR w' t = get re_w tk HS DS TR v' t /\
     view HL (heads w') t = view HL (heads v') t /\ view DL (diffs w') t = view DL (diffs v') t) /\
  (forall a, away X a -> add_result re_w tk HS DS TR w' a = add_result re_w tk HS DS TR v' a).
Theorem apart h w : tk <> KLine -> alike (run v_empty h) w -> goes_on_away h w.
Proof.
  intros Hk A0 g Fr Aw w' v'. pose proof (run_alike g _ _ A0 Aw) as A1. fold w' in A1.
  assert (Qv : run (run v_empty h) g = v') by (unfold v', Versions.run; now rewrite fold_left_app). rewrite Qv in A1.
  split; [|split].
  - intros t b base Hin Ht. rewrite (get_alike v' w' t A1 Ht). apply (proj1 (retrieval re_w tk HS DS TR HL DL TL (h ++ g) Hk Fr)) with (1 := Hin).
  - intros t Ht. split; [now apply get_alike|]. split; [now apply A1|now apply A1].
  - intros a Aa. now apply add_alike.
Qed.
End Sim.

(** * MemoryTree *)
Section Memory.
Context {K : Type} {E : Teq K} {O : TeqOk K}.
Variable X : K -> Prop.
Implicit Type s : nodes K.
Definition out (n : node K) : Prop := (forall q, parent n = Some q -> ~ X q) /\ forall c, In c (children n) -> ~ X c.
(** the same number of nodes, and the same nodes outside of [X], which lead to others outside
    of [X] only *)
Record like_m s s' : Prop := {
  lm_length : length s' = length s;
  lm_get : forall u, ~ X u -> dget s' u = dget s u;
  lm_out : forall u n, ~ X u -> dget s u = Some n -> out n
}.
Lemma length_dset s k n : length (dset s k n) = match dget s k with Some _ => length s | None => S (length s) end.
Proof.
  induction s as [|[k0 n0] s IH]; [reflexivity|]. cbn. destruct (teq k0 k); [reflexivity|]. cbn. rewrite IH. now destruct (dget s k).
Qed.
Lemma like_dset s s' k n : like_m s s' -> ~ X k -> out n -> like_m (dset s k n) (dset s' k n).
Proof.
  intros [L1 L2 L3] Hk Hn. split.
  - rewrite !length_dset, (L2 k Hk), L1. reflexivity.
  - intros u Hu. rewrite !dget_dset, (L2 u Hu). reflexivity.
  - intros u m Hu. rewrite dget_dset. destruct (teq k u); [now intros [= <-]|now apply L3].
Qed.
Lemma path_like s s' : like_m s s' -> forall fuel tag path, (forall t, tag = Some t -> ~ X t) -> (forall u, In u path -> ~ X u) ->
  path_loop fuel s' tag path = path_loop fuel s tag path /\
  forall p, path_loop fuel s tag path = Ok (Some p) -> forall u, In u p -> ~ X u.
Proof.
  intros L. induction fuel as [|fuel IH]; intros [t|] path Ht Hp; cbn [path_loop].
  - split; [reflexivity|discriminate].
  - split; [reflexivity|]. intros p [= <-] u Hu. apply Hp. now apply in_rev.
  - rewrite (lm_get _ _ L t (Ht t eq_refl)). destruct (dget s t) as [n|] eqn:Q; [|split; [reflexivity|discriminate]].
    apply IH; [apply (lm_out _ _ L t n (Ht t eq_refl) Q)|]. intros u Hu. apply in_app_or in Hu as [Hu|[<-|[]]]; auto.
  - split; [reflexivity|]. intros p [= <-] u Hu. apply Hp. now apply in_rev.
Qed.
Lemma metrics_like s s' l : like_m s s' -> (forall c, In c l -> ~ X c) -> child_metrics s' l = child_metrics s l.
Proof.
  intros L. induction l as [|c l IH]; intros H; [reflexivity|]. cbn. rewrite (lm_get _ _ L c (H c (or_introl eq_refl))).
  destruct (dget s c); [|reflexivity]. rewrite IH; [reflexivity|]. intros d Hd. apply H. now right.
Qed.
Lemma update_like fuel : forall tag s s', like_m s s' -> (forall t, tag = Some t -> ~ X t) ->
  like_m (fst (update_metrics fuel tag s)) (fst (update_metrics fuel tag s')) /\
  snd (update_metrics fuel tag s') = snd (update_metrics fuel tag s).
Proof.
  induction fuel as [|fuel IH]; intros [t|] s s' L Ht; cbn [update_metrics]; try (split; [exact L|reflexivity]).
  specialize (Ht t eq_refl). rewrite (lm_get _ _ L t Ht). destruct (dget s t) as [n|] eqn:Q; [|split; [exact L|reflexivity]].
  destruct (lm_out _ _ L t n Ht Q) as [O1 O2]. rewrite (metrics_like s s' _ L O2).
  destruct (child_metrics s (children n)) as [[h z]|e]; [|split; [exact L|reflexivity]].
  apply IH; [|exact O1]. apply like_dset; [exact L|exact Ht|]. split; [exact O1|exact O2].
Qed.
Lemma in_remove1 x (l : list K) c : In c (remove1 x l) -> In c l.
Proof. induction l as [|y l IH]; cbn; [auto|]. destruct (teq y x); [now right|]. intros [->|H]; auto. Qed.
Lemma move_like s s' k q : like_m s s' -> ~ X k -> ~ X q ->
  like_m (fst (m_change_parent k (Some q) s)) (fst (m_change_parent k (Some q) s')) /\
  snd (m_change_parent k (Some q) s') = snd (m_change_parent k (Some q) s).
Proof.
  intros L Hk Hq. unfold m_change_parent. rewrite (lm_length _ _ L), (lm_get _ _ L k Hk). destruct (dget s k) as [n|] eqn:Qn; [|split; [exact L|reflexivity]].
  destruct (lm_out _ _ L k n Hk Qn) as [O1 O2].
  assert (S1 : (exists e, (match parent n with None => Ok s | Some q => match dget s q with None => Err KeyError
      | Some nq => Ok (if mem_tag k (children nq) then dset s q (set_children nq (remove1 k (children nq))) else s) end end) = Err e /\
      (match parent n with None => Ok s' | Some q => match dget s' q with None => Err KeyError
      | Some nq => Ok (if mem_tag k (children nq) then dset s' q (set_children nq (remove1 k (children nq))) else s') end end) = Err e) \/
    exists s1 s1', (match parent n with None => Ok s | Some q => match dget s q with None => Err KeyError
      | Some nq => Ok (if mem_tag k (children nq) then dset s q (set_children nq (remove1 k (children nq))) else s) end end) = Ok s1 /\
      (match parent n with None => Ok s' | Some q => match dget s' q with None => Err KeyError
      | Some nq => Ok (if mem_tag k (children nq) then dset s' q (set_children nq (remove1 k (children nq))) else s') end end) = Ok s1' /\ like_m s1 s1').
  { destruct (parent n) as [p|]; [|right; eauto]. specialize (O1 p eq_refl). rewrite (lm_get _ _ L p O1).
    destruct (dget s p) as [np|] eqn:Qp; [|left; eauto]. right. eexists _, _. split; [reflexivity|]. split; [reflexivity|].
    destruct (mem_tag k (children np)); [|exact L]. apply like_dset; [exact L|exact O1|]. destruct (lm_out _ _ L p np O1 Qp) as [P1 P2].
    split; [exact P1|]. intros c Hc. cbn in Hc. apply in_remove1 in Hc. now apply P2. }
  destruct S1 as [(e & -> & ->)|(s1 & s1' & -> & -> & L1)]; [split; [exact L|reflexivity]|].
  rewrite (lm_get _ _ L1 k Hk). set (own := match dget s1 k with Some m => children m | None => children n end).
  assert (Ow : forall c, In c own -> ~ X c).
  { unfold own. destruct (dget s1 k) as [m|] eqn:Qm; [|exact O2]. apply (lm_out _ _ L1 k m Hk Qm). }
  set (n2 := set_children (set_parent n (Some q)) own).
  assert (L2 : like_m (dset s1 k n2) (dset s1' k n2)).
  { apply like_dset; [exact L1|exact Hk|]. split; [intros r [= <-]; exact Hq|exact Ow]. }
  rewrite (lm_get _ _ L2 q Hq). destruct (dget (dset s1 k n2) q) as [nr|] eqn:Qr; [|split; [exact L2|reflexivity]].
  destruct (lm_out _ _ L2 q nr Hq Qr) as [R1 R2].
  assert (L3 : like_m (dset (dset s1 k n2) q (set_children nr (children nr ++ [k]))) (dset (dset s1' k n2) q (set_children nr (children nr ++ [k])))).
  { apply like_dset; [exact L2|exact Hq|]. split; [exact R1|]. cbn. intros c Hc. apply in_app_or in Hc as [Hc|[<-|[]]]; auto. }
  destruct (update_like (S (length s)) (Some q) _ _ L3) as [L4 R4]; [intros t [= <-]; exact Hq|].
  destruct (update_metrics _ (Some q) (dset (dset s1 k n2) q _)) as [s3 r3], (update_metrics _ (Some q) (dset (dset s1' k n2) q _)) as [s3' r3'].
  cbn [fst snd] in L4, R4. subst r3'. destruct r3 as [[]|e]; [|split; [exact L4|reflexivity]]. now apply update_like.
Qed.
Lemma best_like s s' l : like_m s s' -> (forall c, In c l -> ~ X c) -> forall i b, best_loop s' i b l = best_loop s i b l.
Proof.
  intros L. induction l as [|c l IH]; intros H i b; [reflexivity|]. cbn. rewrite (lm_get _ _ L c (H c (or_introl eq_refl))).
  destruct (dget s c); [|reflexivity]. apply IH. intros d Hd. apply H. now right.
Qed.
Lemma split_like s s' H : like_m s s' -> (forall u n, ~ X u -> dget s u = Some n -> height n <= H) ->
  forall fuel fuel' depth tag n path, H <= fuel + depth -> H <= fuel' + depth -> ~ X tag -> dget s tag = Some n -> (forall u, In u path -> ~ X u) ->
  split_loop fuel' depth s' tag n path = split_loop fuel depth s tag n path /\
  forall sp p, split_loop fuel depth s tag n path = Ok (sp, p) -> ~ X sp /\ forall u, In u p -> ~ X u.
Proof.
  intros L Hh. induction fuel as [|fuel IH]; intros fuel' depth tag n path F F' Ht Q Hp; pose proof (Hh tag n Ht Q) as Hn.
  - destruct fuel'; cbn [split_loop]; destruct (Nat.ltb_spec depth (height n)); try lia; (split; [reflexivity|]; intros sp p [= <- <-]; auto).
  - cbn [split_loop]. destruct (Nat.ltb_spec depth (height n)) as [Hd|Hd].
    + destruct fuel' as [|fuel']; [lia|]. cbn [split_loop]. destruct (Nat.ltb_spec depth (height n)); [|lia].
      destruct (lm_out _ _ L tag n Ht Q) as [_ O2]. rewrite (best_like s s' _ L O2). destruct (best_loop s 0 None (children n)) as [[hb i]|e]; cbn [bind snd]; [|split; [reflexivity|discriminate]].
      destruct (nth_error (children n) i) as [c|] eqn:Qi; [|split; [reflexivity|discriminate]]. pose proof (O2 c (nth_error_In _ _ Qi)) as Hc.
      rewrite (lm_get _ _ L c Hc). destruct (dget s c) as [m|] eqn:Qm; [|split; [reflexivity|discriminate]].
      apply IH; auto; try lia. intros u Hu. apply in_app_or in Hu as [Hu|[<-|[]]]; auto.
    + destruct fuel'; cbn [split_loop]; destruct (Nat.ltb_spec depth (height n)); try lia; (split; [reflexivity|]; intros sp p [= <- <-]; auto).
Qed.
Lemma max_height_get s u n : dget s u = Some n -> height n <= max_height s.
Proof.
  unfold max_height, dvalues. induction s as [|[k m] s IH]; [discriminate|]. cbn. destruct (teq k u); [intros [= ->]; lia|]. intros Q. specialize (IH Q). lia.
Qed.
Definition memory_frame : tree_frame (memory_tree K) X.
Proof.
  refine (@Build_tree_frame K E (memory_tree K) X like_m _ _ _ _); cbn.
  - intros s s' k b L Hk. split; [|reflexivity]. rewrite (lm_length _ _ L). apply like_dset; auto. split; [discriminate|intros c []].
  - intros s s' k q L Hk Hq. now apply move_like.
  - intros s s' k L Hk. unfold m_path_to. rewrite (lm_length _ _ L). refine (path_like s s' L (S (length s)) (Some k) [] _ _); [intros t [= <-]; exact Hk|intros u []].
  - intros s s' k L Hk. unfold m_get_split. rewrite (lm_get _ _ L k Hk). destruct (dget s k) as [n|] eqn:Q; [|split; [reflexivity|discriminate]].
    set (H := Nat.min (max_height s) (max_height s')).
    assert (Hh : forall u m, ~ X u -> dget s u = Some m -> height m <= H).
    { intros u m Hu Qu. apply Nat.min_glb; [now apply max_height_get with u|]. apply max_height_get with u. now rewrite (lm_get _ _ L u Hu). }
    apply (split_like s s' H L Hh); unfold H; auto; try lia. intros u [<-|[]]. exact Hk.
Defined.
End Memory.

(** * DBTree *)
Section Db.
Context {K : Type} {E : Teq K} {O : TeqOk K}.
Variable X : K -> Prop.
Implicit Type t : table K.
Implicit Type r : row K.
Definition safe (tags : list K) (c : option nat) : Prop := forall i k, c = Some i -> nth_error tags i = Some k -> ~ X k.
Definition out_row (tags : list K) r : Prop := safe tags (r_parent_rid r) /\ safe tags (r_child0 r) /\ safe tags (r_child1 r).
(** the same tags, and the same rows outside of [X], which lead to others outside of [X] only *)
Record like_d t t' : Prop := {
  ld_tags : map r_tag t' = map r_tag t;
  ld_row : forall i r, nth_error t i = Some r -> ~ X (r_tag r) -> nth_error t' i = Some r;
  ld_out : forall i r, nth_error t i = Some r -> ~ X (r_tag r) -> out_row (map r_tag t) r
}.
Lemma ld_length t t' : like_d t t' -> length t' = length t.
Proof. intros L. now rewrite <- (map_length (@r_tag K) t'), (ld_tags _ _ L), map_length. Qed.
Lemma ld_get t t' i : like_d t t' -> safe (map r_tag t) (Some i) -> nth_error t' i = nth_error t i.
Proof.
  intros L S. destruct (nth_error t i) as [r|] eqn:Q.
  - apply (ld_row _ _ L i r Q). apply (S i _ eq_refl). now apply tag_at.
  - apply nth_error_None. rewrite (ld_length _ _ L). now apply nth_error_None.
Qed.
Lemma safe_tag t i r : safe (map r_tag t) (Some i) -> nth_error t i = Some r -> ~ X (r_tag r).
Proof. intros S Q. apply (S i _ eq_refl). now apply tag_at. Qed.
Lemma rid_from_tag t k : forall j i, rid_from j t k = Some i -> j <= i /\ nth_error (map r_tag t) (i - j) = Some k.
Proof.
  induction t as [|r t IH]; intros j i; cbn; [discriminate|]. destruct (teq_spec (r_tag r) k) as [->|].
  - intros [= <-]. split; [lia|]. now rewrite Nat.sub_diag.
  - intros H. apply IH in H as [H1 H2]. split; [lia|]. replace (i - j) with (S (i - S j)) by lia. exact H2.
Qed.
Lemma rid_safe t k i : rid_of t k = Some i -> ~ X k -> safe (map r_tag t) (Some i).
Proof.
  intros H Hk j k' [= <-] Q. apply rid_from_tag in H as [_ H]. rewrite Nat.sub_0_r in H. congruence.
Qed.
Lemma ld_rid t t' k : like_d t t' -> rid_of t' k = rid_of t k.
Proof.
  intros L. unfold rid_of. generalize 0. pose proof (ld_tags _ _ L) as T. clear L. revert t' T.
  induction t as [|r t IH]; intros [|r' t'] T i; cbn in *; try discriminate; [reflexivity|].
  injection T as T1 T2. rewrite T1. destruct (teq _ _); [reflexivity|]. now apply IH.
Qed.
Lemma ld_row_of t t' k : like_d t t' -> ~ X k -> row_of t' k = row_of t k.
Proof.
  intros L Hk. unfold row_of. rewrite (ld_rid t t' k L). destruct (rid_of t k) as [i|] eqn:Q; [|reflexivity].
  now rewrite (ld_get t t' i L (rid_safe t k i Q Hk)).
Qed.
Lemma row_of_at t k i r : row_of t k = Some (i, r) -> rid_of t k = Some i /\ nth_error t i = Some r.
Proof.
  unfold row_of. destruct (rid_of t k) as [j|]; [|discriminate]. destruct (nth_error t j) as [r'|] eqn:Q; [|discriminate].
  intros [= <- <-]. auto.
Qed.
Lemma lupd_tags t i f : (forall r, r_tag (f r) = r_tag r) -> map r_tag (lupd t i f) = map r_tag t.
Proof.
  intros H. apply nth_error_ext_local. intros j. rewrite !nth_error_map, nth_error_lupd. destruct (i =? j); [|reflexivity].
  destruct (nth_error t j); cbn; [now rewrite H|reflexivity].
Qed.
Lemma like_lupd t t' i f : like_d t t' -> safe (map r_tag t) (Some i) -> (forall r, r_tag (f r) = r_tag r) ->
  (forall r, out_row (map r_tag t) r -> out_row (map r_tag t) (f r)) -> like_d (lupd t i f) (lupd t' i f).
Proof.
  intros L S T H. split.
  - rewrite !lupd_tags; auto. apply L.
  - intros j r. rewrite !nth_error_lupd. destruct (Nat.eqb_spec i j) as [<-|]; [|apply L]. rewrite (ld_get t t' i L S). auto.
  - intros j r. rewrite lupd_tags by auto. rewrite nth_error_lupd. destruct (Nat.eqb_spec i j) as [<-|]; [|apply L].
    destruct (nth_error t i) as [r0|] eqn:Q; [|discriminate]. cbn. intros [= <-] Hx. apply H. apply (ld_out _ _ L i r0 Q). now rewrite T in Hx.
Qed.
Lemma like_update_at t t' c f : like_d t t' -> safe (map r_tag t) c -> (forall r, r_tag (f r) = r_tag r) ->
  (forall r, out_row (map r_tag t) r -> out_row (map r_tag t) (f r)) -> like_d (update_at c f t) (update_at c f t').
Proof. intros L S T H. destruct c as [i|]; [|exact L]. now apply like_lupd. Qed.
Lemma update_at_tags t c f : (forall r, r_tag (f r) = r_tag r) -> map r_tag (update_at c f t) = map r_tag t.
Proof. intros H. destruct c as [i|]; [|reflexivity]. now apply lupd_tags. Qed.

Lemma d_add_like t t' k b : like_d t t' -> ~ X k ->
  like_d (fst (d_add k b t)) (fst (d_add k b t')) /\ snd (d_add k b t') = snd (d_add k b t).
Proof.
  intros L Hk. unfold d_add. rewrite (ld_row_of t t' k L Hk). destruct (row_of t k); [split; [exact L|reflexivity]|]. cbn [fst snd]. split; [|reflexivity].
  assert (S : forall c, safe (map r_tag t) c -> safe (map r_tag t ++ [k]) c).
  { intros c S i u Hc Q. destruct (Nat.lt_ge_cases i (length (map r_tag t))) as [Hi|Hi].
    - rewrite nth_error_app1 in Q by exact Hi. now apply (S i u).
    - rewrite nth_error_app2 in Q by exact Hi. destruct (i - length (map r_tag t)) as [|[|m]]; try discriminate. injection Q as <-. exact Hk. }
  split.
  - rewrite !map_app, (ld_tags _ _ L). reflexivity.
  - intros i r Q Hx. destruct (Nat.lt_ge_cases i (length t)) as [Hi|Hi].
    + rewrite nth_error_app1 in * by (rewrite ?(ld_length _ _ L); exact Hi). now apply L.
    + rewrite nth_error_app2 in * by (rewrite ?(ld_length _ _ L); exact Hi). now rewrite (ld_length _ _ L).
  - intros i r Q Hx. rewrite map_app. cbn [map r_tag]. destruct (Nat.lt_ge_cases i (length t)) as [Hi|Hi].
    + rewrite nth_error_app1 in Q by exact Hi. destruct (ld_out _ _ L i r Q Hx) as (A & B & C). repeat split; auto.
    + rewrite nth_error_app2 in Q by exact Hi. destruct (i - length t) as [|[|m]]; try discriminate. injection Q as <-.
      repeat split; intros j u Hj; discriminate.
Qed.
Lemma d_path_like t t' : like_d t t' -> forall fuel c path, safe (map r_tag t) c -> (forall u, In u path -> ~ X u) ->
  d_path_loop fuel t' c path = d_path_loop fuel t c path /\
  forall p, d_path_loop fuel t c path = Ok p -> forall u, In u p -> ~ X u.
Proof.
  intros L. induction fuel as [|fuel IH]; intros [i|] path S Hp; cbn [d_path_loop]; try (split; [reflexivity|]; intros p [= <-]; exact Hp);
    rewrite (ld_get t t' i L S); destruct (nth_error t i) as [r|] eqn:Q; try (split; [reflexivity|]; intros p [= <-]; exact Hp).
  pose proof (safe_tag t i r S Q) as Hr. apply IH; [apply (ld_out _ _ L i r Q Hr)|].
  intros u Hu. apply in_app_or in Hu as [Hu|[<-|[]]]; auto.
Qed.
Lemma slot_like t t' c : like_d t t' -> safe (map r_tag t) c -> slot_metrics t' c = slot_metrics t c /\ slot_row t' c = slot_row t c.
Proof. intros L S. destruct c as [i|]; [|split; reflexivity]. cbn. now rewrite (ld_get t t' i L S). Qed.
Lemma node_metrics_like t t' r : like_d t t' -> out_row (map r_tag t) r -> node_metrics t' r = node_metrics t r.
Proof.
  intros L (_ & S0 & S1). unfold node_metrics. now rewrite (proj1 (slot_like t t' _ L S0)), (proj1 (slot_like t t' _ L S1)).
Qed.
Lemma d_update_like fuel : forall c t t', like_d t t' -> safe (map r_tag t) c ->
  match d_update_loop fuel c t, d_update_loop fuel c t' with
  | Ok u, Ok u' => like_d u u' /\ map r_tag u = map r_tag t
  | Err e, Err e' => e' = e
  | _, _ => False
  end.
Proof.
  induction fuel as [|fuel IH]; intros [i|] t t' L S; cbn [d_update_loop]; try (split; [exact L|reflexivity]);
    rewrite (ld_get t t' i L S); destruct (nth_error t i) as [r|] eqn:Q; try reflexivity.
  pose proof (ld_out _ _ L i r Q (safe_tag t i r S Q)) as Or. rewrite (node_metrics_like t t' r L Or). destruct (node_metrics t r) as [h z].
  assert (T : map r_tag (lupd t i (set_row_metrics h z)) = map r_tag t) by now apply lupd_tags.
  specialize (IH (r_parent_rid r) (lupd t i (set_row_metrics h z)) (lupd t' i (set_row_metrics h z))). rewrite T in IH.
  apply IH; [|apply Or]. now apply like_lupd.
Qed.
Lemma d_metrics_like c t t' : like_d t t' -> safe (map r_tag t) c ->
  like_d (fst (d_update_metrics c t)) (fst (d_update_metrics c t')) /\ snd (d_update_metrics c t') = snd (d_update_metrics c t) /\
  map r_tag (fst (d_update_metrics c t)) = map r_tag t.
Proof.
  intros L S. unfold d_update_metrics. rewrite (ld_length _ _ L). pose proof (d_update_like (length t) c t t' L S) as H.
  destruct (d_update_loop (length t) c t), (d_update_loop (length t) c t'); try destruct H; cbn; subst; auto.
Qed.
Lemma d_move_like t t' k q : like_d t t' -> ~ X k -> ~ X q ->
  like_d (fst (d_change_parent k q t)) (fst (d_change_parent k q t')) /\
  snd (d_change_parent k q t') = snd (d_change_parent k q t).
Proof.
  intros L Hk Hq. unfold d_change_parent. rewrite (ld_row_of t t' k L Hk). destruct (row_of t k) as [[i r]|] eqn:Q; [|split; [exact L|reflexivity]].
  apply row_of_at in Q as [Q1 Q2]. pose proof (rid_safe t k i Q1 Hk) as Si. pose proof (ld_out _ _ L i r Q2 (safe_tag t i r Si Q2)) as (Sp & _ & _).
  assert (T0 : forall r, r_tag (remove_if_child0 i r) = r_tag r) by (intros; unfold remove_if_child0; now destruct (is_rid _ _)).
  assert (T1 : forall r, r_tag (remove_if_child1 i r) = r_tag r) by (intros; unfold remove_if_child1; now destruct (is_rid _ _)).
  assert (N : forall tags, safe tags None) by (intros tags j u; discriminate).
  set (t1 := update_at (r_parent_rid r) (remove_if_child0 i) t). set (t1' := update_at (r_parent_rid r) (remove_if_child0 i) t').
  assert (G1 : map r_tag t1 = map r_tag t) by now apply update_at_tags.
  assert (L1 : like_d t1 t1').
  { apply like_update_at; auto. intros x (A & B & C). unfold remove_if_child0. destruct (is_rid _ _); repeat split; auto; apply N. }
  set (t2 := update_at (r_parent_rid r) (remove_if_child1 i) t1). set (t2' := update_at (r_parent_rid r) (remove_if_child1 i) t1').
  assert (G2 : map r_tag t2 = map r_tag t) by (rewrite <- G1; now apply update_at_tags).
  assert (L2 : like_d t2 t2').
  { apply like_update_at; rewrite ?G1; auto. intros x (A & B & C). unfold remove_if_child1. destruct (is_rid _ _); repeat split; auto; apply N. }
  rewrite (ld_rid t2 t2' q L2). destruct (rid_of t2 q) as [j|] eqn:Qj; [|split; [exact L|reflexivity]].
  pose proof (rid_safe t2 q j Qj Hq) as Sj. rewrite G2 in Sj.
  set (t3 := lupd t2 i (set_parents (Some q) (Some j))). set (t3' := lupd t2' i (set_parents (Some q) (Some j))).
  assert (G3 : map r_tag t3 = map r_tag t) by (rewrite <- G2; now apply lupd_tags).
  assert (L3 : like_d t3 t3').
  { apply like_lupd; rewrite ?G2; auto. intros x (A & B & C). repeat split; auto. }
  set (f := match r_parent r with None => set_child0 (Some i) | Some _ => set_child1 (Some i) end).
  assert (Tf : forall x, r_tag (f x) = r_tag x) by (intros x; unfold f; now destruct (r_parent r)).
  set (t4 := lupd t3 j f). set (t4' := lupd t3' j f).
  assert (G4 : map r_tag t4 = map r_tag t) by (rewrite <- G3; now apply lupd_tags).
  assert (L4 : like_d t4 t4').
  { apply like_lupd; rewrite ?G3; auto. intros x (A & B & C). unfold f. destruct (r_parent r); repeat split; auto. }
  destruct (d_metrics_like (r_parent_rid r) t4 t4' L4) as (L5 & R5 & G5); [now rewrite G4|].
  destruct (d_update_metrics (r_parent_rid r) t4) as [t5 r5], (d_update_metrics (r_parent_rid r) t4') as [t5' r5']. cbn [fst snd] in L5, R5, G5. subst r5'.
  destruct r5 as [[]|e]; [|split; [exact L5|reflexivity]]. destruct (d_metrics_like (Some j) t5 t5' L5) as (L6 & R6 & _); [now rewrite G5, G4|]. auto.
Qed.
Lemma d_split_like t t' H : like_d t t' -> (forall i r, nth_error t i = Some r -> ~ X (r_tag r) -> r_height r <= H) ->
  forall fuel fuel' depth i r path, H <= fuel + depth -> H <= fuel' + depth -> nth_error t i = Some r -> ~ X (r_tag r) -> (forall u, In u path -> ~ X u) ->
  forall tag, ~ X tag ->
  d_split_loop fuel' depth t' tag r path = d_split_loop fuel depth t tag r path /\
  forall sp p, d_split_loop fuel depth t tag r path = Ok (sp, p) -> ~ X sp /\ forall u, In u p -> ~ X u.
Proof.
  intros L Hh. induction fuel as [|fuel IH]; intros fuel' depth i r path F F' Q Hr Hp tag Ht; pose proof (Hh i r Q Hr) as Hn.
  - destruct fuel'; cbn [d_split_loop]; destruct (Nat.ltb_spec depth (r_height r)); try lia; (split; [reflexivity|]; intros sp p [= <- <-]; auto).
  - cbn [d_split_loop]. destruct (Nat.ltb_spec depth (r_height r)) as [Hd|Hd].
    + destruct fuel' as [|fuel']; [lia|]. cbn [d_split_loop]. destruct (Nat.ltb_spec depth (r_height r)); [|lia].
      destruct (ld_out _ _ L i r Q Hr) as (_ & S0 & S1).
      assert (B : best_path t' r = best_path t r) by (unfold best_path; now rewrite (proj2 (slot_like t t' _ L S0)), (proj2 (slot_like t t' _ L S1))).
      rewrite B. clear B. destruct (best_path t r) as [[j c]|] eqn:B; [|split; [reflexivity|discriminate]].
      assert (Hin : In (j, c) (slot_row t (r_child0 r) ++ slot_row t (r_child1 r))).
      { unfold best_path in B. destruct (slot_row t (r_child0 r) ++ slot_row t (r_child1 r)) as [|a [|b l]]; [discriminate|injection B as ->; now left|].
        destruct (better a b); injection B as ->; [now left|right; now left]. }
      assert (Hc : nth_error t j = Some c /\ ~ X (r_tag c)).
      { assert (G : forall s, safe (map r_tag t) s -> In (j, c) (slot_row t s) -> nth_error t j = Some c /\ ~ X (r_tag c)).
        { intros [m|] S G; [|destruct G]. cbn in G. destruct (nth_error t m) as [x|] eqn:Qm; [|destruct G]. destruct G as [[= <- <-]|[]].
          split; [exact Qm|now apply (safe_tag t m)]. }
        apply in_app_or in Hin as [Hin|Hin]; [exact (G _ S0 Hin)|exact (G _ S1 Hin)]. }
      destruct Hc as [Hc1 Hc2]. apply IH with j; auto; try lia. intros u Hu. apply in_app_or in Hu as [Hu|[<-|[]]]; auto.
    + destruct fuel'; cbn [d_split_loop]; destruct (Nat.ltb_spec depth (r_height r)); try lia; (split; [reflexivity|]; intros sp p [= <- <-]; auto).
Qed.
Definition db_frame : tree_frame (db_tree K) X.
Proof.
  refine (@Build_tree_frame K E (db_tree K) X like_d _ _ _ _); cbn.
  - intros t t' k b L Hk. now apply d_add_like.
  - intros t t' k q L Hk Hq. now apply d_move_like.
  - intros t t' k L Hk. unfold d_path_to. rewrite (ld_length _ _ L), (ld_rid t t' k L).
    destruct (d_path_like t t' L (length t) (rid_of t k) []) as [-> P]; [|intros u []|].
    + intros i u Q. now apply (rid_safe t k i Q Hk).
    + split; [reflexivity|]. destruct (d_path_loop (length t) t (rid_of t k) []) as [p|e]; [|discriminate]. cbn [bind].
      intros p' [= <-] u Hu. apply in_rev in Hu. now apply (P p eq_refl).
  - intros t t' k L Hk. unfold d_get_split. rewrite (ld_row_of t t' k L Hk). destruct (row_of t k) as [[i r]|] eqn:Q; [|split; [reflexivity|discriminate]].
    apply row_of_at in Q as [Q1 Q2]. pose proof (safe_tag t i r (rid_safe t k i Q1 Hk) Q2) as Hr.
    set (H := Nat.min (fold_right Nat.max 0 (map r_height t)) (fold_right Nat.max 0 (map r_height t'))).
    assert (Hh : forall j x, nth_error t j = Some x -> ~ X (r_tag x) -> r_height x <= H).
    { intros j x Qj Hx. apply Nat.min_glb; apply max_row_height with j; [exact Qj|now apply L]. }
    apply (d_split_like t t' H L Hh _ _ 1 i); unfold H; auto; try lia. intros u [<-|[]]. exact Hk.
Defined.
End Db.

(** * Histories *)
Section Closed.
Context {K : Type} {E : Teq K} {O : TeqOk K}.
Variable re_w : Z -> bool.
Variable tk : tkind.
Variables HS DS : store K.
Variable HL : store_law HS.
Variable DL : store_law DS.
Variable X : K -> Prop.
Notation M := (memory_tree K).
Notation T := (db_tree K).
Implicit Type h : list (adding K).

Lemma memory_like h (tr : nodes K) : tk <> KLine -> fresh tk h -> whole_lines h X ->
  let s := tree (run re_w tk HS DS M v_empty h) : nodes K in
  length tr = length s -> (forall u, ~ X u -> dget tr u = dget s u) -> like (memory_frame X) s tr.
Proof.
  intros Hk Fr W s Hl Hg. destruct (lineage_inv re_w tk HS DS M HL DL memory_law h Hk Fr) as (s0 & I & L).
  pose proof (c_rep _ _ _ _ _ _ _ _ _ _ _ _ (h_core _ _ _ _ _ _ _ _ _ _ _ I)) as [R [[_ [_ C]] _]]. fold s in R. subst s0.
  pose proof (child_lines X h s W L) as Ch. split; [exact Hl|exact Hg|]. intros u n Hu Hn. split.
  - intros q Hq Xq. apply Hu, (Ch u q); [exists n; auto|exact Xq].
  - intros c Hc Xc. apply Hu, (Ch c u); [|exact Xc]. now apply (C u n Hn).
Qed.
Lemma db_like h (t' : table K) : tk <> KLine -> fresh tk h -> whole_lines h X ->
  let t := tree (run re_w tk HS DS T v_empty h) : table K in
  map r_tag t' = map r_tag t -> (forall i r, nth_error t i = Some r -> ~ X (r_tag r) -> nth_error t' i = Some r) -> like (db_frame X) t t'.
Proof.
  intros Hk Fr W t Ht Hr. destruct (lineage_inv re_w tk HS DS T HL DL db_law h Hk Fr) as (s0 & I & L).
  pose proof (c_rep _ _ _ _ _ _ _ _ _ _ _ _ (h_core _ _ _ _ _ _ _ _ _ _ _ I)) as [R [Lk [[_ [_ C]] _]]]. fold t in R, Lk. subst s0.
  pose proof (child_lines X h (absn t) W L) as Ch. split; [exact Ht|exact Hr|]. intros i r Q Hx.
  pose proof (absn_get t i r (l_tags _ Lk) Q) as Hn.
  assert (Kid : forall k, In k (kids t r) -> ~ X k).
  { intros k Hin Xk. apply Hx, (Ch k (r_tag r)); [|exact Xk]. now apply (C (r_tag r) _ Hn). }
  split; [|split].
  - intros j k Hj Qk Xk. pose proof (l_parent _ Lk i r Q) as P. rewrite Hj in P. destruct (r_parent r) as [q|] eqn:Hp; [|destruct P].
    rewrite Qk in P. injection P as ->. apply Hx, (Ch (r_tag r) q); [|exact Xk]. exists (node_of t i r). auto.
  - intros j k Hj Qk. apply Kid. unfold kids. rewrite Hj. apply in_or_app. right. unfold kid. rewrite Qk. now left.
  - intros j k Hj Qk. apply Kid. unfold kids. rewrite Hj. apply in_or_app. left. unfold kid. rewrite Qk. now left.
Qed.
Lemma start_alike (TR : tree_impl K) (F : tree_frame TR X) (TL : tree_law TR) h hs ds tr : tk <> KLine -> fresh tk h ->
  let v := run re_w tk HS DS TR v_empty h in like F (tree v) tr -> fine HL hs -> fine DL ds ->
  (forall u, ~ X u -> view HL hs u = view HL (heads v) u) -> (forall u, ~ X u -> view DL ds u = view DL (diffs v) u) ->
  alike HS DS TR HL DL X F v (mkV hs ds tr).
Proof.
  intros Hk Fr v L F1 F2 E1 E2. destruct (hist_ok re_w tk HS DS TR HL DL TL h Hk Fr) as [s I]. fold v in I.
  split; cbn; auto. split; [|auto]. apply (c_fine _ _ _ _ _ _ _ _ _ _ _ _ (h_core _ _ _ _ _ _ _ _ _ _ _ I)).
Qed.
Theorem apart_memory h hs ds tr : tk <> KLine -> fresh tk h -> whole_lines h X -> fine HL hs -> fine DL ds ->
  let v := run re_w tk HS DS M v_empty h in
  (forall u, ~ X u -> view HL hs u = view HL (heads v) u) -> (forall u, ~ X u -> view DL ds u = view DL (diffs v) u) ->
  length tr = length (tree v : nodes K) -> (forall u, ~ X u -> dget tr u = dget (tree v : nodes K) u) ->
  goes_on_away re_w tk HS DS M HL DL X h (mkV hs ds (tr : tree_t M)).
Proof.
  intros Hk Fr W F1 F2 v E1 E2 Hl Hg. apply (apart re_w tk HS DS M HL DL X (memory_frame X) memory_law h _ Hk).
  apply (start_alike M (memory_frame X) memory_law); auto. now apply memory_like.
Qed.
Theorem apart_db h hs ds tr : tk <> KLine -> fresh tk h -> whole_lines h X -> fine HL hs -> fine DL ds ->
  let v := run re_w tk HS DS T v_empty h in
  (forall u, ~ X u -> view HL hs u = view HL (heads v) u) -> (forall u, ~ X u -> view DL ds u = view DL (diffs v) u) ->
  map r_tag tr = map r_tag (tree v : table K) ->
  (forall i r, nth_error (tree v : table K) i = Some r -> ~ X (r_tag r) -> nth_error tr i = Some r) ->
  goes_on_away re_w tk HS DS T HL DL X h (mkV hs ds (tr : tree_t T)).
Proof.
  intros Hk Fr W F1 F2 v E1 E2 Hl Hg. apply (apart re_w tk HS DS T HL DL X (db_frame X) db_law h _ Hk).
  apply (start_alike T (db_frame X) db_law); auto. now apply db_like.
Qed.
End Closed.
