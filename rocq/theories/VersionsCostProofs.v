(** The bytes and tokens copied by a retrieval. *)
From Coq Require Import ZArith Lia.
From Verif Require Import Base Changesets Serialize SpecSerialize SerializeProofs SerializeCost SerializeCostProofs
  Tokenizers SpecTokenizers TokenizersProofs TokenizersDiff ChangesetsProofs Tree SpecTree TreeProofs SpecStorage
  Versions SpecVersions VersionsPatch VersionsInv VersionsProofs VersionsMore VersionsSqrt StorageProofs StorageRoom VersionsCost
  DbTree SpecDb DbTreeProofs DbVersions.
Local Open Scope nat_scope.
Local Notation names k st := (Forall2 (fun t x => name k st t = Some x)).

Section Cost.
Context {K : Type} {E : Teq K} {O : TeqOk K}.
Variable re_w : Z -> bool.
Variable tk : tkind.
Variables HS DS : store K.
Variable TR : tree_impl K.

Lemma loop_erase v path : forall st toks,
  snd (retrieve_loop_n re_w tk HS DS TR v st toks path) = retrieve_loop re_w tk HS DS TR v st toks path.
Proof.
  induction path as [|t path IH]; intros st toks; [reflexivity|]. cbn [retrieve_loop_n retrieve_loop].
  destruct (s_get DS (diffs v) t) as [d|e]; [|reflexivity]. cbn [bind]. rewrite <- (deserialize_erase d).
  destruct (deserialize_changeset_n d) as [n [items stop]]. cbn [snd].
  destruct (encode_items re_w tk st items) as [st' [patch|e]]; [|reflexivity]. cbn [bind]. destruct stop; [reflexivity|].
  unfold apply_n. cbv zeta. rewrite <- (IH st' (apply patch toks)). now destruct (retrieve_loop_n re_w tk HS DS TR v st' (apply patch toks) path).
Qed.
Theorem get_erase v t : snd (get_n re_w tk HS DS TR v t) = get re_w tk HS DS TR v t.
Proof.
  unfold get_n, get. destruct (tr_path_to TR (tree v) t) as [[[|r p]|]|e]; try reflexivity. cbn [bind].
  unfold retrieve_using_path_n, retrieve_using_path. destruct (s_get HS (heads v) r) as [c|e]; [|reflexivity]. cbn [bind].
  destruct (encode re_w tk new_tokenizer (CBytes c)) as [st [toks|e]]; [|reflexivity]. cbn [bind].
  rewrite <- (loop_erase v p st toks). now destruct (retrieve_loop_n re_w tk HS DS TR v st toks p).
Qed.

Lemma sliced_le {T} (version : list T) patch : sliced version patch <= length (apply patch version).
Proof.
  unfold sliced, apply, join_changes. induction patch as [|[d|s] patch IH]; [cbn; lia| |];
    cbn [map list_sum fold_right concat]; rewrite app_length; unfold list_sum in IH; lia.
Qed.

(** stored diffs are bytes *)
Definition byte_item (i : pitem Z) : Prop := match i with PData d => Forall is_byte d | PSlice _ => True end.
Lemma penc_bytes nb p s : penc nb p s -> Forall byte_item p -> Forall is_byte s.
Proof.
  induction 1 as [nb|d n p s V _ IH|i j a b p s V W _ IH]; intros F; [constructor| |]; inversion F; subst; rewrite !Forall_app.
  - apply venc_length in V. tauto.
  - apply venc_length in V, W. tauto.
Qed.
Lemma align_bytes p : forall nb, Forall byte_item p -> Forall byte_item (align nb p).
Proof.
  induction p as [|[d|s] p IH]; intros nb F; [constructor| |]; inversion F; subst; cbn [align]; destruct nb; cbn [app]; repeat constructor; auto.
Qed.
Lemma serialize_bytes p d : serialize_changeset p = Ok d -> Forall byte_item p -> Forall is_byte d.
Proof.
  intros H F. unfold serialize_changeset in H.
  assert (P : patch_fits p).
  { assert (D : forall i, {item_fits i} + {~ item_fits i}).
    { assert (U : forall v, {u64 v} + {~ u64 v}).
      { intros v; unfold u64; destruct (Z_le_dec 0 v), (Z_lt_dec v (2 ^ 64)); [left|right|right|right]; lia. }
      intros [d'|[i [j|]]]; cbn; [apply U| |right; tauto].
      destruct (U (Z.of_nat i)), (U (Z.of_nat j)); [left|right|right|right]; tauto. }
    destruct (Forall_dec _ D p) as [P|P]; [exact P|]. destruct (serialize_bad p P true) as [e [Q _]]. congruence. }
  destruct (serialize_penc p P true) as [s [Q R]]. assert (s = d) by congruence. subst s.
  exact (penc_bytes _ _ _ R (align_bytes p true F)).
Qed.

Lemma made_bytes o m items : storable tk o -> storable tk m -> make_changeset re_w tk o m = Ok items -> Forall byte_item items.
Proof.
  intros So Sm Hm.
  destruct (texts_encodable re_w tk (CBytes o) (proj1 So)) as [tso To].
  destruct (texts_encodable re_w tk (CBytes m) (proj1 Sm)) as [tsm Tm].
  destruct (patch_made re_w tk o m tso tsm So Sm To Tm) as (tp & Hm' & Ha & _ & _).
  rewrite Hm in Hm'. injection Hm' as ->.
  pose proof (texts_concat _ _ _ _ Tm) as Cm. cbn [raw] in Cm.
  destruct Sm as [[Rm _] _]. cbn in Rm.
  apply Forall_forall. intros i Hi. apply in_map_iff in Hi as (j & <- & Hj). destruct j as [ts|x]; [|exact I].
  cbn [flat byte_item]. apply Forall_forall. intros z Hz. rewrite Forall_forall in Rm. apply Rm. rewrite <- Cm, <- Ha.
  apply in_concat in Hz as (t & Ht & Hz). apply in_concat. exists t. split; [|exact Hz].
  unfold apply, join_changes. apply in_concat. exists ts. split; [|exact Ht].
  apply in_map_iff. exists (PData ts). now split.
Qed.

Variable HL : store_law HS.
Variable DL : store_law DS.
Variable TL : tree_law TR.
Notation core := (VersionsInv.core re_w tk HS DS TR HL DL TL).

Definition reads (v : vstate HS DS TR) (u : K) : nat :=
  match s_get DS (diffs v) u with
  | Ok d => let k := length (fst (deserialize_changeset d)) in k * (2 * k + 1)
  | Err _ => 0
  end.
Definition tokens_in (V : K -> option (list Z)) (u : K) : nat := match V u with Some b => token_count re_w tk b | None => 0 end.
Lemma loop_cost V v s B : tk <> KLine -> core None V v s -> (forall t b, V t = Some b -> length b <= B) ->
  let M := let X := (2 * width (Z.of_nat B) + 1) * B in X * (X + 1) + 4 * B in
  forall t p, down s t p ->
  forall bt tst st toks, V t = Some bt -> texts re_w tk (CBytes bt) = Some tst ->
  st_ok st -> source_type st = Some SBytes -> ready tk st -> names tk st toks tst ->
  let n := fst (retrieve_loop_n re_w tk HS DS TR v st toks (tl p)) in
  2 * n <= length (tl p) * M /\ list_sum (map (fun u => reads v u + tokens_in V u) (tl p)) <= n.
Proof.
  intros Hk C LB M t p Hd.
  induction Hd as [t Ht|t c p Hc Hd IH]; intros bt tst st toks Hb Htx Hst S R N; [cbn; lia|].
  destruct (down_cons _ _ _ Hd) as [p' ->]. cbn [tl] in *.
  destruct Hc as [n [Hn Hp]].
  destruct (V c) as [bc|] eqn:Hbc; [|apply (c_dom _ _ _ _ _ _ _ _ _ _ _ _ C) in Hbc; congruence].
  destruct (c_diff _ _ _ _ _ _ _ _ _ _ _ _ C c n t bt bc Hn Hp Hb Hbc) as [d [Hd' [items [Hm Hs]]]]; [discriminate|].
  pose proof (c_ok _ _ _ _ _ _ _ _ _ _ _ _ C t bt Hb) as Sb. pose proof (c_ok _ _ _ _ _ _ _ _ _ _ _ _ C c bc Hbc) as Sc.
  destruct (texts_encodable re_w tk (CBytes bc) (proj1 Sc)) as [tsc Htc].
  destruct (make_changeset_ok re_w tk bt bc tst tsc Sb Sc Htx Htc) as [items' [Hm' PB]].
  assert (items' = items) by congruence; subst items'.
  pose proof PB as [_ [d' [Hs' Hde]]]. assert (d' = d) by congruence; subst d'.
  destruct (replay_step re_w tk items tst tsc bc st toks PB Sc Htc Hst S R N)
    as [st' [pt [tsc' [E1 [O1 [S1 [R1 [N1 [C1 K1]]]]]]]]].
  rewrite (K1 Hk) in N1.
  specialize (IH bc tsc st' (apply pt toks) eq_refl Htc O1 S1 R1 N1).
  pose proof (LB _ _ Hb) as Lt. pose proof (LB _ _ Hbc) as Lc.
  assert (Room : length d <= (2 * width (Z.of_nat B) + 1) * length bc).
  { apply (patch_room re_w tk (Z.of_nat B) bt bc items d Hk Sb Sc); auto; lia. }
  assert (Bd : Forall is_byte d) by (apply (serialize_bytes items); [exact Hs|exact (made_bytes bt bc items Sb Sc Hm)]).
  pose proof (reading_cost d Bd) as RC. pose proof (deserialize_erase d) as DE.
  assert (L : length (apply pt toks) = length tsc) by (eapply Forall2_len; exact N1).
  assert (Tc : tokens_in V c = length tsc).
  { unfold tokens_in, token_count. rewrite Hbc.
    destruct (encode_ok re_w tk new_tokenizer (CBytes bc) tsc new_ok (or_introl eq_refl) (proj1 (proj1 Sc)) Htc) as [x1 [x2 [X [_ [_ [_ [_ N2]]]]]]].
    rewrite X. eapply Forall2_len; exact N2. }
  assert (Toks : length (apply pt toks) <= B).
  { rewrite L.
    pose proof (concat_len_ge _ (texts_nonempty re_w tk _ _ Hk Htc)) as Q.
    rewrite (texts_concat _ _ _ _ Htc) in Q. cbn [raw] in Q. lia. }
  cbn [retrieve_loop_n map]. rewrite Tc. unfold reads at 1. rewrite (view_get _ DL), Hd'. rewrite <- DE.
  destruct (deserialize_changeset_n d) as [k [its stop]]. cbn [fst snd] in *.
  assert (Q : (its, stop) = (trimmed items, None)) by (rewrite DE; exact Hde). injection Q as -> ->.
  rewrite E1. unfold apply_n. pose proof (sliced_le toks pt) as SL.
  destruct (retrieve_loop_n re_w tk HS DS TR v st' (apply pt toks) p') as [m r]. cbn [fst list_sum fold_right length] in *.
  fold (list_sum (map (fun u => reads v u + tokens_in V u) p')). destruct IH as [IH1 IH2]. destruct RC as [RC1 RC2].
  split; [|lia].
  assert (length d * (length d + 1) + 4 * B <= M).
  { unfold M. set (W := 2 * width (Z.of_nat B) + 1) in *. assert (length d <= W * B) by nia. nia. }
  lia.
Qed.

Theorem retrieval_cost h B : tk <> KLine -> fresh tk h -> (forall t b base, In (t, b, base) h -> length b <= B) ->
  let v := run re_w tk HS DS TR v_empty h in
  forall t b base, In (t, b, base) h -> exists n r q, get_n re_w tk HS DS TR v t = (n, Ok (Some b)) /\
    tr_path_to TR (tree v) t = Ok (Some (r :: q)) /\
    2 * n <= length q * (let X := (2 * width (Z.of_nat B) + 1) * B in X * (X + 1) + 4 * B) /\
    list_sum (map (fun u => reads v u + tokens_in (V_of h) u) q) <= n.
Proof.
  intros Hk F LB v t b base Hin.
  pose proof (proj1 (retrieval re_w tk HS DS TR HL DL TL h Hk F) t b base Hin) as G. fold v in G.
  destruct (hist_ok re_w tk HS DS TR HL DL TL h Hk F) as [s I]. fold v in I.
  pose proof (h_core _ _ _ _ _ _ _ _ _ _ _ I) as C.
  destruct (inv_up re_w tk HS DS TR HL DL TL h _ s t I (In_added _ _ _ _ Hin)) as [l Hu].
  destruct (up_down _ _ _ Hu) as [r [n [Hr [Hp [Hd [Hl [p Hrev]]]]]]].
  pose proof (rep_path _ TL _ s t l (c_rep _ _ _ _ _ _ _ _ _ _ _ _ C) Hu) as P. rewrite Hrev in P, Hd.
  pose proof (get_erase v t) as GE. rewrite G in GE. destruct (get_n re_w tk HS DS TR v t) as [k x] eqn:GN. cbn [snd] in GE. subst x.
  exists k, r, p. split; [reflexivity|]. split; [exact P|].
  destruct (V_of h r) as [br|] eqn:Br; [|apply (c_dom _ _ _ _ _ _ _ _ _ _ _ _ C) in Br; congruence].
  pose proof (c_ok _ _ _ _ _ _ _ _ _ _ _ _ C r br Br) as Sr.
  destruct (texts_encodable re_w tk (CBytes br) (proj1 Sr)) as [tsr Htx].
  destruct (encode_ok re_w tk new_tokenizer (CBytes br) tsr new_ok (or_introl eq_refl) (proj1 (proj1 Sr)) Htx)
    as [s1 [toks [E1 [O1 [X1 [S1 [R1 N1]]]]]]].
  assert (LB' : forall t b, V_of h t = Some b -> length b <= B) by (intros t' b' Q; apply V_of_some in Q as [base' Q]; eauto).
  pose proof (loop_cost (V_of h) v s B Hk C LB' r (r :: p) Hd br tsr s1 toks Br Htx O1 S1 R1 N1) as LC.
  unfold get_n in GN. rewrite P in GN. unfold retrieve_using_path_n in GN.
  rewrite (view_get _ HL) in GN. rewrite (c_head _ _ _ _ _ _ _ _ _ _ _ _ C r n Hr Hp), Br, E1 in GN.
  cbn [tl] in LC. destruct (retrieve_loop_n re_w tk HS DS TR v s1 toks p) as [m y]. injection GN as -> _. exact LC.
Qed.
End Cost.

Section Instances.
Context {K : Type} {E : Teq K} {O : TeqOk K}.
Variable re_w : Z -> bool.
Variable tk : tkind.
Notation D := (dict_store K).
Notation M := (memory_tree K).

Lemma reads_info (v : vstate D D M) u b c n : version_info D D M v u = Ok (Some (b, c, n)) ->
  match dget (diffs v) u with Some _ => n * (2 * n + 1) | None => 0 end = reads D D M v u.
Proof.
  unfold version_info, reads. cbn [s_dot_get s_get dict_store].
  destruct (dget (diffs v) u) as [d|]; [|reflexivity].
  destruct (deserialize_changeset d) as [items [e|]]; [discriminate|]. cbn [bind fst].
  destruct (tr_base M (tree v) u); [|discriminate]. cbn [bind]. now intros [= <- <- <-].
Qed.
Theorem retrieval_cost_memory h B : tk <> KLine -> fresh tk h -> (forall t b base, In (t, b, base) h -> length b <= B) ->
  let v := run re_w tk D D M v_empty h in
  forall t b base, In (t, b, base) h -> exists n r q, get_n re_w tk D D M v t = (n, Ok (Some b)) /\
    m_path_to (tree v) t = Ok (Some (r :: q)) /\ (length q + 1) * (length q + 3) <= 8 * length h /\
    2 * n <= length q * (let X := (2 * width (Z.of_nat B) + 1) * B in X * (X + 1) + 4 * B) /\
    list_sum (map (fun u => change_count v u * (2 * change_count v u + 1) +
      match get re_w tk D D M v u with Ok (Some b) => token_count re_w tk b | _ => 0 end) q) <= n.
Proof.
  intros Hk F LB v t b base Hin.
  destruct (retrieval_cost re_w tk D D M dict_law dict_law memory_law h B Hk F LB t b base Hin) as (n & r & q & G & P & U & L).
  fold v in G, P, L. destruct (proj1 (sqrt_memory re_w tk h Hk F) t (In_added _ _ _ _ Hin)) as (r' & nd & q' & P' & _ & _ & Q1 & Q2).
  fold v in P'. cbn [tr_path_to memory_tree] in P. assert (q' = q) by congruence. subst q'.
  exists n, r, q. split; [exact G|]. split; [exact P|]. split; [lia|]. split; [exact U|].
  etransitivity; [|exact L]. clear - Hk F O. induction q as [|u q IH]; [cbn; lia|]. cbn [map list_sum fold_right]. unfold list_sum in IH.
  assert (G : match get re_w tk D D M v u with Ok (Some b) => token_count re_w tk b | _ => 0 end = tokens_in re_w tk (V_of h) u).
  { unfold tokens_in. destruct (retrieval re_w tk D D M dict_law dict_law memory_law h Hk F) as [R1 R2].
    destruct (V_of h u) as [b|] eqn:Hv.
    - apply V_of_some in Hv as [base Hin]. unfold v. now rewrite (R1 _ _ _ Hin).
    - apply V_of_none in Hv. unfold v. now rewrite (R2 _ Hv). }
  rewrite G. clear G.
  enough (change_count v u * (2 * change_count v u + 1) <= reads D D M v u) by lia.
  unfold change_count. destruct (version_info D D M v u) as [[[[b c] n]|]|] eqn:VI; try (cbn; lia).
  rewrite <- (reads_info v u b c n VI). destruct (dget (diffs v) u) eqn:Dg; [lia|].
  unfold version_info in VI. cbn [s_dot_get dict_store] in VI. rewrite Dg in VI. cbn [bind] in VI.
  destruct (dget (heads v) u); [|discriminate]. cbn [bind] in VI. destruct (tr_base M (tree v) u); [|discriminate]. cbn [bind] in VI.
  injection VI as <- <- <-. lia.
Qed.
Theorem retrieval_cost_db place1 place2 h B : tk <> KLine -> fresh tk h -> (forall t b base, In (t, b, base) h -> length b <= B) ->
  let v := run re_w tk (db_store K place1) (db_store K place2) (db_tree K) v_empty h in
  forall t b base, In (t, b, base) h -> exists n p,
    get_n re_w tk (db_store K place1) (db_store K place2) (db_tree K) v t = (n, Ok (Some b)) /\
    d_path_to (tree v) t = Ok (Some p) /\ length p * (length p + 2) <= 8 * length h /\
    2 * n <= (length p - 1) * (let X := (2 * width (Z.of_nat B) + 1) * B in X * (X + 1) + 4 * B).
Proof.
  intros Hk F LB v t b base Hin.
  destruct (retrieval_cost re_w tk _ _ _ (db_store_law place1) (db_store_law place2) db_law h B Hk F LB t b base Hin)
    as (n & r & q & G & P & U & L). fold v in G, P, L.
  destruct (proj1 (sqrt_db re_w tk place1 place2 h Hk F) t (In_added _ _ _ _ Hin)) as (p & P' & Q).
  fold v in P'. cbn [tr_path_to db_tree] in P. assert (p = r :: q) by congruence. subst p.
  exists n, (r :: q). split; [exact G|]. split; [exact P|]. split; [exact Q|].
  cbn [length]. rewrite Nat.sub_succ, Nat.sub_0_r. exact U.
Qed.
End Instances.

Theorem apply_cost {T} (patch : list (pitem T)) version : snd (apply_n patch version) = apply patch version /\
  fst (apply_n patch version) + list_sum (map (fun i => match i with PData d => length d | PSlice _ => 0 end) patch) =
    2 * length (apply patch version).
Proof.
  split; [reflexivity|]. unfold apply_n, sliced; cbn [fst]. unfold apply, join_changes.
  induction patch as [|i patch IH]; [reflexivity|]. unfold list_sum in *. cbn [map concat fold_right].
  rewrite app_length. destruct i; lia.
Qed.
