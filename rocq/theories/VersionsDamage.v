(** What a retrieval reads: the head of its way and the diffs of the rest of it. *)
From Coq Require Import ZArith Lia.
From Verif Require Import Base Changesets Serialize Tokenizers SpecTokenizers Tree SpecTree TreeProofs
  Versions SpecVersions VersionsInv VersionsProofs VersionsMore DbTree SpecDb DbTreeProofs DbVersions VersionsSqrt.
Local Open Scope nat_scope.

Section Damage.
Context {K : Type} {E : Teq K} {O : TeqOk K}.
Variable re_w : Z -> bool.
Variable tk : tkind.
Variables HS DS : store K.
Variable TR : tree_impl K.
Notation vst := (@vstate K HS DS TR).
Notation loop := (retrieve_loop re_w tk HS DS TR).
Notation get := (get re_w tk HS DS TR).

Lemma loop_same (v w : vst) path : (forall u, In u path -> s_get DS (diffs w) u = s_get DS (diffs v) u) ->
  forall st toks, loop w st toks path = loop v st toks path.
Proof.
  induction path as [|a path IH]; intros H st toks; [reflexivity|]. cbn [retrieve_loop].
  rewrite (H a (or_introl eq_refl)). destruct (s_get DS (diffs v) a) as [d|e]; [|reflexivity]. cbn [bind].
  destruct (deserialize_changeset d) as [items stop]. destruct (encode_items re_w tk st items) as [st' [patch|e]]; [|reflexivity].
  cbn [bind]. destruct stop; [reflexivity|]. apply IH. intros u Hu. apply H. now right.
Qed.
Lemma loop_lost (v w : vst) path :
  (forall u, In u path -> s_get DS (diffs w) u = s_get DS (diffs v) u \/ s_get DS (diffs w) u = Err KeyError) ->
  (exists u, In u path /\ s_get DS (diffs w) u = Err KeyError) ->
  forall st toks b, loop v st toks path = Ok b -> loop w st toks path = Err KeyError.
Proof.
  induction path as [|a path IH]; intros H [x [Hx Hl]] st toks b Ho; [destruct Hx|]. cbn [retrieve_loop] in Ho |- *.
  destruct (H a (or_introl eq_refl)) as [S|S]; [|now rewrite S]. destruct Hx as [->|Hx]; [now rewrite Hl|].
  rewrite S. destruct (s_get DS (diffs v) a) as [d|e]; [|discriminate]. cbn [bind] in Ho |- *.
  destruct (deserialize_changeset d) as [items stop]. destruct (encode_items re_w tk st items) as [st' [patch|e]]; [|discriminate].
  cbn [bind] in Ho |- *. destruct stop; [discriminate|]. eapply IH; eauto. intros u Hu. apply H. now right.
Qed.

Lemma get_same (v w : vst) t r q : tree w = tree v -> tr_path_to TR (tree v) t = Ok (Some (r :: q)) ->
  s_get HS (heads w) r = s_get HS (heads v) r ->
  (forall u, In u q -> s_get DS (diffs w) u = s_get DS (diffs v) u) -> get w t = get v t.
Proof.
  intros Ht Hp Hr Hq. unfold Versions.get. rewrite Ht, Hp. cbn [bind]. unfold retrieve_using_path. rewrite Hr.
  destruct (s_get HS (heads v) r) as [c|e]; [|reflexivity]. cbn [bind].
  destruct (encode re_w tk new_tokenizer (CBytes c)) as [st [toks|e]]; [|reflexivity]. cbn [bind].
  now rewrite (loop_same v w q Hq).
Qed.
Lemma get_lost (v w : vst) t r q b : tree w = tree v -> tr_path_to TR (tree v) t = Ok (Some (r :: q)) ->
  get v t = Ok (Some b) ->
  (s_get HS (heads w) r = s_get HS (heads v) r \/ s_get HS (heads w) r = Err KeyError) ->
  (forall u, In u q -> s_get DS (diffs w) u = s_get DS (diffs v) u \/ s_get DS (diffs w) u = Err KeyError) ->
  s_get HS (heads w) r = Err KeyError \/ (exists u, In u q /\ s_get DS (diffs w) u = Err KeyError) ->
  get w t = Err KeyError.
Proof.
  intros Ht Hp Ho Hr Hq Hl. unfold Versions.get in Ho |- *. rewrite Ht. rewrite Hp in Ho |- *. cbn [bind] in Ho |- *.
  unfold retrieve_using_path in Ho |- *.
  destruct Hr as [Hr|Hr]; [|now rewrite Hr]. destruct Hl as [Hl|Hl]; [now rewrite Hl|].
  rewrite Hr. destruct (s_get HS (heads v) r) as [c|e]; [|discriminate]. cbn [bind] in Ho |- *.
  destruct (encode re_w tk new_tokenizer (CBytes c)) as [st [toks|e]]; [|discriminate]. cbn [bind] in Ho |- *.
  destruct (loop v st toks q) as [x|e] eqn:El; [|discriminate].
  now rewrite (loop_lost v w q Hq Hl st toks x El).
Qed.

Variable HL : store_law HS.
Variable DL : store_law DS.
Variable TL : tree_law TR.
Notation run := (run re_w tk HS DS TR).

(** the entries outside of the way of a version do not matter to it *)
Theorem damage_local h hs ds t b base r q : tk <> KLine -> fresh tk h -> In (t, b, base) h ->
  let v := run v_empty h in
  tr_path_to TR (tree v) t = Ok (Some (r :: q)) ->
  s_get HS hs r = s_get HS (heads v) r -> (forall u, In u q -> s_get DS ds u = s_get DS (diffs v) u) ->
  get (@mkV K HS DS TR hs ds (tree v)) t = Ok (Some b).
Proof.
  intros Hk F Hin v Hp Hr Hq. rewrite (get_same v _ t r q); auto.
  apply (proj1 (retrieval re_w tk HS DS TR HL DL TL h Hk F)) with (1 := Hin).
Qed.
(** lost entries never lead to other contents *)
Theorem damage_lost h hs ds t b base r q : tk <> KLine -> fresh tk h -> In (t, b, base) h ->
  let v := run v_empty h in
  tr_path_to TR (tree v) t = Ok (Some (r :: q)) ->
  (forall u, s_get HS hs u = s_get HS (heads v) u \/ s_get HS hs u = Err KeyError) ->
  (forall u, s_get DS ds u = s_get DS (diffs v) u \/ s_get DS ds u = Err KeyError) ->
  let w := @mkV K HS DS TR hs ds (tree v) in
  (get w t = Err KeyError /\ (s_get HS hs r = Err KeyError \/ exists u, In u q /\ s_get DS ds u = Err KeyError)) \/
  (get w t = Ok (Some b) /\ s_get HS hs r <> Err KeyError /\ forall u, In u q -> s_get DS ds u <> Err KeyError).
Proof.
  intros Hk F Hin v Hp Hr Hq w.
  assert (G : get v t = Ok (Some b)) by (apply (proj1 (retrieval re_w tk HS DS TR HL DL TL h Hk F)) with (1 := Hin)).
  assert (Dec : forall l, (exists u, In u l /\ s_get DS ds u = Err KeyError) \/ (forall u, In u l -> s_get DS ds u <> Err KeyError)).
  { induction l as [|a l IH]; [right; intros u []|].
    destruct (s_get DS ds a) as [c|[]] eqn:Ea.
    all: try (left; exists a; split; [now left|assumption]).
    all: destruct IH as [[u [Hu Hl]]|IH]; [left; exists u; split; [now right|assumption]|right; intros u [<-|Hu]; [congruence|auto]]. }
  assert (Hd : s_get HS hs r = Err KeyError \/ s_get HS hs r <> Err KeyError).
  { destruct (s_get HS hs r) as [c|[]]; try (right; discriminate). now left. }
  destruct Hd as [Hd|Hd]; [left|destruct (Dec q) as [L|L]; [left|right]].
  - split; [|now left]. apply (get_lost v w t r q b); auto.
  - split; [|now right]. apply (get_lost v w t r q b); auto.
  - split; [|auto]. apply (damage_local h hs ds t b base r q); auto.
    + destruct (Hr r); [assumption|contradiction].
    + intros u Hu. destruct (Hq u); [assumption|]. exfalso. now apply (L u).
Qed.
End Damage.

Section Instances.
Context {K : Type} {E : Teq K} {O : TeqOk K}.
Variable re_w : Z -> bool.
Variable tk : tkind.
Notation D := (dict_store K).
Notation C := (db_store K).
Notation M := (memory_tree K).
Notation T := (db_tree K).

Lemma dict_get (d : store_t D) u : s_get D d u = match dget d u with Some b => Ok b | None => Err KeyError end.
Proof. exact (view_get D dict_law d u). Qed.

Theorem damage_local_memory h t b base r q hs ds : tk <> KLine -> fresh tk h -> In (t, b, base) h ->
  let v := run re_w tk D D M v_empty h in
  m_path_to (tree v) t = Ok (Some (r :: q)) ->
  dget hs r = dget (heads v) r -> (forall u, In u q -> dget ds u = dget (diffs v) u) ->
  get re_w tk D D M (@mkV K D D M hs ds (tree v)) t = Ok (Some b).
Proof.
  intros Hk F Hin v Hp Hr Hq. apply (damage_local re_w tk D D M dict_law dict_law memory_law h hs ds t b base r q Hk F Hin Hp).
  - rewrite !dict_get. now rewrite Hr.
  - intros u Hu. rewrite !dict_get. now rewrite (Hq u Hu).
Qed.
Theorem damage_lost_memory h t b base r q hs ds : tk <> KLine -> fresh tk h -> In (t, b, base) h ->
  let v := run re_w tk D D M v_empty h in
  m_path_to (tree v) t = Ok (Some (r :: q)) ->
  (forall u, dget hs u = dget (heads v) u \/ dget hs u = None) ->
  (forall u, dget ds u = dget (diffs v) u \/ dget ds u = None) ->
  let w := @mkV K D D M hs ds (tree v) in
  (get re_w tk D D M w t = Err KeyError /\ (dget hs r = None \/ exists u, In u q /\ dget ds u = None)) \/
  (get re_w tk D D M w t = Ok (Some b) /\ dget hs r <> None /\ forall u, In u q -> dget ds u <> None).
Proof.
  intros Hk F Hin v Hp Hr Hq w.
  assert (N : forall (d : store_t D) u, s_get D d u = Err KeyError <-> dget d u = None).
  { intros d u. rewrite dict_get. destruct (dget d u); split; congruence. }
  destruct (damage_lost re_w tk D D M dict_law dict_law memory_law h hs ds t b base r q Hk F Hin Hp) as [[G X]|[G [X Y]]].
  - intros u. rewrite N. destruct (Hr u) as [S|S]; [left; rewrite !dict_get; now rewrite S|now right].
  - intros u. rewrite N. destruct (Hq u) as [S|S]; [left; rewrite !dict_get; now rewrite S|now right].
  - left. split; [exact G|]. destruct X as [X|[u [Hu X]]]; [left|right; exists u; split; [exact Hu|]]; now apply N.
  - right. split; [exact G|]. split; [now rewrite <- N|]. intros u Hu. rewrite <- N. now apply Y.
Qed.
Theorem damage_local_db place1 place2 h t b base r q hs ds : tk <> KLine -> fresh tk h -> In (t, b, base) h ->
  let v := run re_w tk (C place1) (C place2) T v_empty h in
  d_path_to (tree v) t = Ok (Some (r :: q)) ->
  s_get (C place1) hs r = s_get (C place1) (heads v) r ->
  (forall u, In u q -> s_get (C place2) ds u = s_get (C place2) (diffs v) u) ->
  get re_w tk (C place1) (C place2) T (@mkV K (C place1) (C place2) T hs ds (tree v)) t = Ok (Some b).
Proof. apply (damage_local re_w tk (C place1) (C place2) T (db_store_law place1) (db_store_law place2) db_law). Qed.
Theorem damage_lost_db place1 place2 h t b base r q hs ds : tk <> KLine -> fresh tk h -> In (t, b, base) h ->
  let v := run re_w tk (C place1) (C place2) T v_empty h in
  d_path_to (tree v) t = Ok (Some (r :: q)) ->
  (forall u, s_get (C place1) hs u = s_get (C place1) (heads v) u \/ s_get (C place1) hs u = Err KeyError) ->
  (forall u, s_get (C place2) ds u = s_get (C place2) (diffs v) u \/ s_get (C place2) ds u = Err KeyError) ->
  let w := @mkV K (C place1) (C place2) T hs ds (tree v) in
  (get re_w tk (C place1) (C place2) T w t = Err KeyError /\
    (s_get (C place1) hs r = Err KeyError \/ exists u, In u q /\ s_get (C place2) ds u = Err KeyError)) \/
  (get re_w tk (C place1) (C place2) T w t = Ok (Some b) /\
    s_get (C place1) hs r <> Err KeyError /\ forall u, In u q -> s_get (C place2) ds u <> Err KeyError).
Proof. apply (damage_lost re_w tk (C place1) (C place2) T (db_store_law place1) (db_store_law place2) db_law). Qed.

(** few entries are read *)
Theorem damage_few_memory h t b base : tk <> KLine -> fresh tk h -> In (t, b, base) h ->
  let v := run re_w tk D D M v_empty h in
  exists p, length p * (length p + 2) <= 8 * length h /\
    forall hs ds, (forall u, In u p -> dget hs u = dget (heads v) u /\ dget ds u = dget (diffs v) u) ->
    get re_w tk D D M (@mkV K D D M hs ds (tree v)) t = Ok (Some b).
Proof.
  intros Hk F Hin v. destruct (proj1 (sqrt_memory re_w tk h Hk F) t (In_added _ _ _ _ Hin)) as [r [n [q [P [_ [_ [L1 L2]]]]]]].
  exists (r :: q). split; [cbn [length]; lia|].
  intros hs ds S. apply (damage_local_memory h t b base r q hs ds Hk F Hin P).
  - apply S. now left.
  - intros u Hu. apply S. now right.
Qed.
End Instances.
