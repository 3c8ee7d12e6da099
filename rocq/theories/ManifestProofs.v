(** Histories of manifests. *)
From Coq Require Import ZArith Lia.
From Verif Require Import Base Changesets Serialize Tokenizers SpecTokenizers Tree SpecTree
  Versions SpecVersions VersionsPatch VersionsInv VersionsProofs
  Json Manifest SpecManifest JsonProofs ManifestDocs Utf8Proofs.
Local Open Scope nat_scope.

Section M.
Variable re_w : Z -> bool.
Variable tk : tkind.
Variables HS DS : store tag.
Variable TR : tree_impl tag.
Variable HL : store_law HS.
Variable DL : store_law DS.
Variable TL : tree_law TR.
Hypothesis Hk : tk <> KLine.
Notation run := (run re_w tk HS DS TR v_empty).
Notation add := (add re_w tk HS DS TR).
Notation get := (get re_w tk HS DS TR).
Notation contains := (contains HS DS TR).
Notation add_files := (add_files re_w tk HS DS TR).
Notation add_manifest := (add_manifest re_w tk HS DS TR).
Notation base_manifest := (base_manifest re_w tk HS DS TR).
Notation do_call := (do_call re_w tk HS DS TR).
Notation after_calls := (after_calls re_w tk HS DS TR).
Notation outcomes := (outcomes re_w tk HS DS TR).
Implicit Type h : list (adding tag).

Lemma run_add h t b base : fst (snd (add t b base (run h))) = run (h ++ [(t, b, base)]).
Proof. symmetry. apply (run_snoc re_w tk HS DS TR h (t, b, base) v_empty). Qed.
Lemma contains_run h t : fresh tk h -> contains (run h) t = true <-> added h t.
Proof. intros F. apply (base_reported re_w tk HS DS TR HL DL TL h Hk F). Qed.
Lemma added_dec h t : fresh tk h -> added h t \/ ~ added h t.
Proof.
  intros F. destruct (contains (run h) t) eqn:E; [left; now apply contains_run|right].
  intros K. apply (contains_run h t F) in K. congruence.
Qed.
Lemma added_app h h' t : added (h ++ h') t <-> added h t \/ added h' t.
Proof. unfold added. now rewrite map_app, in_app_iff. Qed.
Lemma fresh_app h t b base : fresh tk h -> ~ added h t -> base <> Some t -> storable tk b ->
  fresh tk (h ++ [(t, b, base)]).
Proof.
  intros [N F] Ht Hb Hs. split.
  - rewrite map_app. apply NoDup_app_intro; [assumption|cbn; constructor; [intros []|constructor]|].
    intros x Hx [<-|[]]. exact (Ht Hx).
  - apply Forall_app; split; [assumption|]. constructor; [split; assumption|constructor].
Qed.
Lemma get_run h t b base : fresh tk h -> In (t, b, base) h -> get (run h) t = Ok (Some b).
Proof. intros F. apply (retrieval re_w tk HS DS TR HL DL TL h Hk F). Qed.
Lemma get_run_none h t : fresh tk h -> ~ added h t -> get (run h) t = Ok None.
Proof. intros F. apply (retrieval re_w tk HS DS TR HL DL TL h Hk F). Qed.

(** * The loop over the files *)
Section Files.
Variable content : tag -> list Z.
Variable contents : dict tag (list Z).
Hypothesis Hcont : forall t b, dget contents t = Some b -> b = content t /\ storable tk b.
Variable bm : option json.

Lemma add_files_cons name t m v : add_files ((name, t) :: m) contents bm v =
  match (if contains v t then ([], (v, Ok tt))
         else match dget contents t with
              | None => ([], (v, Err KeyError))
              | Some b => match base_of_file bm name with
                          | Err e => ([], (v, Err e))
                          | Ok base => add t b base v
                          end
              end) with
  | (t1, (v1, Ok _)) => let '(t2, r) := add_files m contents bm v1 in (t1 ++ t2, r)
  | (t1, (v1, Err e)) => (t1, (v1, Err e))
  end.
Proof.
  cbn [Manifest.add_files]. unfold Versions.vbind, Versions.look, Versions.vret.
  destruct (contains v t).
  - destruct (add_files m contents bm v) as [t2 r]; reflexivity.
  - destruct (dget contents t) as [b|]; [|reflexivity].
    destruct (base_of_file bm name) as [base|e]; [|reflexivity].
    destruct (add t b base v) as [t1 [v1 [u|e]]]; [|reflexivity].
    destruct (add_files m contents bm v1) as [t2 r]; reflexivity.
Qed.

Lemma add_files_ok : forall m h, fresh tk h ->
  (forall name b, base_of_file bm name = Ok (Some b) -> added h b) ->
  (forall name e, base_of_file bm name = Err e -> e = KeyError) ->
  exists hn r, snd (add_files m contents bm (run h)) = (run (h ++ hn), r) /\ fresh tk (h ++ hn) /\
    (forall t b base, In (t, b, base) hn -> In t (dvalues m) /\ b = content t) /\
    (r = Ok tt -> forall t, In t (dvalues m) -> added (h ++ hn) t) /\
    (r = Ok tt \/ r = Err KeyError).
Proof.
  induction m as [|[name t] m IH]; intros h F Hb Hbe.
  { exists [], (Ok tt). rewrite app_nil_r. split; [reflexivity|]. split; [assumption|].
    split; [intros ? ? ? []|]. split; [intros _ ? []|now left]. }
  rewrite add_files_cons. destruct (contains (run h) t) eqn:Ec.
  - destruct (IH h F Hb Hbe) as [hn [r [E [F' [H1 [H2 H3]]]]]].
    destruct (add_files m contents bm (run h)) as [t2 rr]. cbn [snd] in *. subst rr.
    exists hn, r. split; [reflexivity|]. split; [assumption|]. split.
    { intros u b base Hin. destruct (H1 u b base Hin). split; [right|]; assumption. }
    split; [|assumption]. intros Hr u [<-|Hu]; [|now apply H2].
    apply added_app. left. cbn. now apply contains_run.
  - assert (Ht : ~ added h t) by (intros K; apply (contains_run h t F) in K; congruence).
    destruct (dget contents t) as [b|] eqn:Eb.
    2: { exists [], (Err KeyError). rewrite app_nil_r. split; [reflexivity|]. split; [assumption|].
         split; [intros ? ? ? []|]. split; [discriminate|now right]. }
    destruct (Hcont t b Eb) as [Hbc Hbs].
    destruct (base_of_file bm name) as [base|e] eqn:Ebase.
    2: { exists [], (Err e). rewrite app_nil_r. split; [reflexivity|]. split; [assumption|].
         split; [intros ? ? ? []|]. split; [discriminate|]. rewrite (Hbe name e Ebase). now right. }
    assert (Hbt : base <> Some t) by (intros ->; apply Ht, (Hb name); assumption).
    pose proof (fresh_app h t b base F Ht Hbt Hbs) as F1.
    pose proof (run_add h t b base) as R1.
    pose proof (results re_w tk HS DS TR HL DL TL h (t, b, base) Hk F1) as Res.
    unfold add_result in Res. cbn [base_of snd] in Res.
    destruct (add t b base (run h)) as [t1 [v1 r1]]. cbn [fst snd] in *. subst v1.
    destruct r1 as [u|e].
    + destruct (IH (h ++ [(t, b, base)]) F1) as [hn [r [E [F' [H1 [H2 H3]]]]]].
      { intros nm b' Hn. apply added_app. left. now apply (Hb nm). }
      { exact Hbe. }
      destruct (add_files m contents bm (run (h ++ [(t, b, base)]))) as [t2 rr]. cbn [snd] in *. subst rr.
      exists ((t, b, base) :: hn), r. rewrite <- app_assoc in *. cbn [app] in *.
      split; [reflexivity|]. split; [assumption|]. split.
      { intros u' b' base' [K|Hin].
        - injection K as <- <- <-. split; [now left|assumption].
        - destruct (H1 u' b' base' Hin). split; [right|]; assumption. }
      split; [|assumption]. intros Hr u' [<-|Hu]; [|now apply H2].
      apply added_app. right. now left.
    + exists [(t, b, base)], (Err e). split; [reflexivity|]. split; [assumption|]. split.
      { intros u' b' base' [K|[]]. injection K as <- <- <-. split; [now left|assumption]. }
      split; [discriminate|]. right. f_equal. destruct base as [x|].
      * destruct Res as [Res1 Res2].
        destruct (hist_ok re_w tk HS DS TR HL DL TL h Hk F) as [s Inv].
        destruct (is_head_dec re_w tk HS DS TR HL DL TL h x _ s Inv) as [K|K].
        -- specialize (Res1 K). discriminate.
        -- destruct (Res2 K) as [e' [Ee He]]. injection Ee as ->. apply He. now apply (Hb name).
      * destruct Res as [Res1 _]. specialize (Res1 I). discriminate.
Qed.

(** a name that the base manifest does not have stops the loop *)
Lemma add_files_missing : forall m h name t, fresh tk h ->
  (forall name b, base_of_file bm name = Ok (Some b) -> added h b) ->
  (forall name e, base_of_file bm name = Err e -> e = KeyError) ->
  In (name, t) m -> base_of_file bm name = Err KeyError ->
  ~ added h t -> (forall name', In (name', t) m -> name' = name) ->
  snd (snd (add_files m contents bm (run h))) = Err KeyError.
Proof.
  induction m as [|[n0 t0] m IH]; intros h name t F Hb Hbe Hin Hbad Hna Hu; [destruct Hin|].
  destruct (add_files_ok ((n0, t0) :: m) h F Hb Hbe) as [hn0 [r0 [E0 [_ [_ [_ HK]]]]]].
  rewrite E0. cbn [snd]. destruct HK as [->| ->]; [|reflexivity]. exfalso.
  rewrite add_files_cons in E0.
  destruct (T_dec t0 t) as [->|Ht].
  - assert (n0 = name) as -> by (apply Hu; now left).
    destruct (contains (run h) t) eqn:Ec; [apply contains_run in Ec; auto|].
    rewrite Hbad in E0. destruct (dget contents t); cbn in E0; injection E0 as _ E0; discriminate.
  - destruct Hin as [K|Hin]; [injection K as -> ->; contradiction|].
    assert (Hu' : forall name', In (name', t) m -> name' = name) by (intros n' K; apply Hu; now right).
    destruct (contains (run h) t0) eqn:Ec.
    + pose proof (IH h name t F Hb Hbe Hin Hbad Hna Hu') as K.
      destruct (add_files m contents bm (run h)) as [t2 [v2 r2]]. cbn [snd] in *. subst r2.
      injection E0 as _ E0; discriminate.
    + destruct (dget contents t0) as [b|] eqn:Eb; [|cbn in E0; injection E0 as _ E0; discriminate].
      destruct (Hcont t0 b Eb) as [Hbc Hbs].
      destruct (base_of_file bm n0) as [base|e] eqn:Ebase; [|cbn in E0; injection E0 as _ E0; discriminate].
      assert (Hnt : ~ added h t0) by (intros K; apply (contains_run h t0 F) in K; congruence).
      assert (Hbt : base <> Some t0) by (intros ->; apply Hnt, (Hb n0); assumption).
      pose proof (fresh_app h t0 b base F Hnt Hbt Hbs) as F1.
      pose proof (run_add h t0 b base) as R1.
      destruct (add t0 b base (run h)) as [t1 [v1 r1]]. cbn [fst snd] in *. subst v1.
      destruct r1 as [u|e]; [|cbn in E0; injection E0 as _ E0; discriminate].
      assert (K : snd (snd (add_files m contents bm (run (h ++ [(t0, b, base)])))) = Err KeyError).
      { apply (IH _ name t F1); auto.
        - intros nm b' Hn. apply added_app. left. now apply (Hb nm).
        - rewrite added_app. intros [K|[K|[]]]; [exact (Hna K)|]. cbn in K. congruence. }
      destruct (add_files m contents bm (run (h ++ [(t0, b, base)]))) as [t2 [v2 r2]]. cbn [snd] in *. subst r2.
      injection E0 as _ E0; discriminate.
Qed.
End Files.

(** * Base manifests *)
Lemma file_base m name : manifest_ok m -> base_of_file (Some (as_dict m)) name =
  match dget m name with Some t => Ok (Some t) | None => Err KeyError end.
Proof.
  intros [N H]. unfold as_dict. cbn [base_of_file]. destruct name as [s|n].
  - induction m as [|[k t] m IH]; [reflexivity|].
    destruct (H k t (or_introl eq_refl)) as [[s' [-> _]] _]. cbn [map dget fst snd str_of].
    change (teq (TStr s') (TStr s)) with (teq s' s).
    destruct (teq s' s); [destruct t; reflexivity|].
    cbn in N. inversion N; subst. apply IH; [assumption|]. intros; apply H; now right.
  - replace (dget m (TInt n)) with (@None tag); [reflexivity|]. symmetry. apply dget_None. intros K.
    unfold dkeys in K. apply in_map_iff in K as [[k t] [E K]]. cbn in E. subst k.
    destruct (H _ _ K) as [[s [E _]] _]. discriminate.
Qed.
Lemma In_dvalues (m : manifest) k t : In (k, t) m -> In t (dvalues m).
Proof. intros H. unfold dvalues. apply in_map_iff. now exists (k, t). Qed.

(** * Whole calls *)
Lemma file_tag_snoc calls c t : file_tag (calls ++ [c]) t <-> file_tag calls t \/ In t (dvalues (mc_files c)).
Proof.
  unfold file_tag. split.
  - intros [x [Hx Ht]]. rewrite in_app_iff in Hx. destruct Hx as [Hx|[<-|[]]]; [left; now exists x|now right].
  - intros [[x [Hx Ht]]|Ht]; [exists x|exists c]; (split; [|assumption]); apply in_app_iff; cbn; tauto.
Qed.

Section Calls.
Variable content : tag -> list Z.
Notation proper := (proper tk content).

Definition accounts (calls : list mcall) h : Prop :=
  forall t b base, In (t, b, base) h ->
    (exists c, In c calls /\ t = mc_tag c /\ manifest_to_doc (mc_files c) = Ok b /\
       forall u, In u (dvalues (mc_files c)) -> added h u) \/
    (file_tag calls t /\ b = content t).

Lemma proper_snoc calls c : proper (calls ++ [c]) -> proper calls.
Proof.
  intros P. assert (L : forall x, In x calls -> In x (calls ++ [c])) by (intros; apply in_app_iff; now left).
  destruct P as [P1 P2 P3 P4 P5 P6]. constructor.
  - rewrite map_app in P1. clear -P1. induction (map mc_tag calls) as [|x l IH]; [constructor|].
    cbn in P1. inversion P1; subst. constructor; [|now apply IH]. intros K. apply H1, in_app_iff. now left.
  - intros x Hx K. apply (P2 x (L x Hx)). apply file_tag_snoc. now left.
  - intros x b Hx Hb. destruct (P3 x b (L x Hx) Hb) as [Q1 Q2]. split; [assumption|].
    intros K. apply Q2, file_tag_snoc. now left.
  - auto.
  - eauto.
  - eauto.
Qed.

(** what the base manifest looks like *)
Lemma base_manifest_ok calls c h : proper (calls ++ [c]) -> fresh tk h -> accounts calls h ->
  base_manifest (run h) (mc_base c) = Ok None \/
  exists p, In p calls /\ mc_base c = Some (mc_tag p) /\ added h (mc_tag p) /\
    base_manifest (run h) (mc_base c) = Ok (Some (as_dict (mc_files p))) /\
    forall u, In u (dvalues (mc_files p)) -> added h u.
Proof.
  intros P F A. destruct (mc_base c) as [b|] eqn:Hb; [|now left]. cbn [Manifest.base_manifest].
  destruct (added_dec h b F) as [Ha|Ha].
  - right. destruct (added_In h b Ha) as [bs [base Hin]].
    destruct (p_base _ _ _ P c b ltac:(apply in_app_iff; right; now left) Hb) as [_ Hnf].
    destruct (A b bs base Hin) as [[p [Hp [-> [Hd Hu]]]]|[K _]].
    2: { exfalso; apply Hnf, file_tag_snoc. now left. }
    exists p. split; [assumption|]. split; [reflexivity|]. split; [assumption|]. split; [|assumption].
    rewrite (get_run h _ _ _ F Hin). cbn [bind].
    destruct (docs_ok (mc_files p)) as [doc [D1 [D2 _]]].
    { apply (p_files _ _ _ P). apply in_app_iff. now left. }
    rewrite Hd in D1. injection D1 as ->. rewrite D2. reflexivity.
  - left. now rewrite (get_run_none h b F Ha).
Qed.

Lemma base_tags_added calls c h bm : proper (calls ++ [c]) -> fresh tk h -> accounts calls h ->
  base_manifest (run h) (mc_base c) = Ok bm ->
  (forall name b, base_of_file bm name = Ok (Some b) -> added h b) /\
  (forall name e, base_of_file bm name = Err e -> e = KeyError).
Proof.
  intros P F A E. destruct (base_manifest_ok calls c h P F A) as [K|[p [Hp [_ [_ [K Hu]]]]]]; rewrite K in E; injection E as <-.
  - split; discriminate.
  - assert (Ok' : manifest_ok (mc_files p)) by (apply (p_files _ _ _ P), in_app_iff; now left).
    split; intros name x; rewrite (file_base _ name Ok').
    + destruct (dget (mc_files p) name) as [t|] eqn:Et; [|discriminate]. intros K2. injection K2 as <-.
      apply Hu. apply dget_In in Et. now apply In_dvalues in Et.
    + destruct (dget (mc_files p) name); [discriminate|]. now intros [=].
Qed.

Lemma do_call_unfold v c : do_call v c =
  match base_manifest v (mc_base c) with
  | Err e => (v, Err e)
  | Ok bm =>
    match snd (add_files (mc_files c) (mc_contents c) bm v) with
    | (v1, Err e) => (v1, Err e)
    | (v1, Ok _) =>
      match manifest_to_doc (mc_files c) with
      | Err e => (v1, Err e)
      | Ok doc => snd (add (mc_tag c) doc (mc_base c) v1)
      end
    end
  end.
Proof.
  unfold SpecManifest.do_call, Manifest.add_manifest, Versions.vbind, Versions.look.
  destruct (base_manifest v (mc_base c)) as [bm|e]; [|reflexivity].
  destruct (add_files (mc_files c) (mc_contents c) bm v) as [t1 [v1 [u|e]]]; [|reflexivity]. cbn [snd].
  destruct (manifest_to_doc (mc_files c)) as [doc|e]; [|reflexivity].
  destruct (add (mc_tag c) doc (mc_base c) v1) as [t2 r]. reflexivity.
Qed.

(** one call: what it adds, and what it promises when it succeeds *)
Lemma call_ok calls c h : proper (calls ++ [c]) -> fresh tk h -> accounts calls h ->
  exists h', fst (do_call (run h) c) = run (h ++ h') /\ fresh tk (h ++ h') /\ accounts (calls ++ [c]) (h ++ h') /\
    (snd (do_call (run h) c) = Ok tt -> added (h ++ h') (mc_tag c)).
Proof.
  intros P F A. assert (Hc : In c (calls ++ [c])) by (apply in_app_iff; right; now left).
  pose proof (p_files _ _ _ P c Hc) as Mok.
  assert (Up : forall h1, accounts calls h -> (forall t b base, In (t, b, base) h1 -> In t (dvalues (mc_files c)) /\ b = content t) ->
    accounts (calls ++ [c]) (h ++ h1)).
  { intros h1 A' H1 t b base Hin. apply in_app_iff in Hin as [Hin|Hin].
    - destruct (A' t b base Hin) as [[p [Hp [Ht [Hd Hu]]]]|[Hf Hb]].
      + left. exists p. split; [apply in_app_iff; now left|]. do 2 (split; [assumption|]).
        intros u K. apply added_app. left. auto.
      + right. split; [apply file_tag_snoc; now left|assumption].
    - destruct (H1 t b base Hin) as [Ht Hb]. right. split; [|assumption]. apply file_tag_snoc. now right. }
  rewrite do_call_unfold.
  destruct (base_manifest (run h) (mc_base c)) as [bm|e] eqn:Eb.
  2: { destruct (base_manifest_ok calls c h P F A) as [K|[p [_ [_ [_ [K _]]]]]]; congruence. }
  destruct (base_tags_added calls c h bm P F A Eb) as [B1 B2].
  destruct (add_files_ok content (mc_contents c)
    (fun t b => p_contents _ _ _ P c t b Hc) bm (mc_files c) h F B1 B2) as [hn [r [E [F1 [H1 [H2 H3]]]]]].
  rewrite E. destruct r as [u|e].
  2: { exists hn. cbn [fst snd]. split; [reflexivity|]. split; [assumption|]. split; [now apply Up|discriminate]. }
  destruct (docs_ok (mc_files c) Mok) as [doc [D1 [D2 D3]]]. rewrite D1.
  pose proof (doc_storable tk (mc_files c) doc Mok D1 (p_size _ _ _ P c doc Hc D1)) as St.
  assert (Hu : u = tt) by now destruct u. subst u.
  assert (Hnew : ~ added (h ++ hn) (mc_tag c)).
  { intros K. apply added_In in K as [b [base K]]. apply in_app_iff in K as [K|K].
    - destruct (A _ _ _ K) as [[p [Hp [Ht _]]]|[Hf _]].
      + pose proof (p_tags _ _ _ P) as N. rewrite map_app in N. cbn in N.
        apply NoDup_remove_2 in N. rewrite app_nil_r in N. apply N. rewrite Ht. now apply in_map.
      + apply (p_apart _ _ _ P c Hc). apply file_tag_snoc. now left.
    - destruct (H1 _ _ _ K) as [Hv _]. apply (p_apart _ _ _ P c Hc). apply file_tag_snoc. now right. }
  assert (Hbt : mc_base c <> Some (mc_tag c)).
  { intros K. now destruct (p_base _ _ _ P c _ Hc K). }
  pose proof (fresh_app (h ++ hn) (mc_tag c) doc (mc_base c) F1 Hnew Hbt St) as F2.
  pose proof (run_add (h ++ hn) (mc_tag c) doc (mc_base c)) as R2.
  exists (hn ++ [(mc_tag c, doc, mc_base c)]). rewrite app_assoc.
  split; [assumption|]. split; [assumption|]. split.
  - intros t b base Hin. apply in_app_iff in Hin as [Hin|[K|[]]].
    + destruct (Up hn A H1 t b base Hin) as [[p [Hp [Ht [Hd Hu]]]]|K]; [left|now right].
      exists p. do 3 (split; [assumption|]). intros u K. apply added_app. left. auto.
    + injection K as <- <- <-. left. exists c. do 2 (split; [first [assumption|reflexivity]|]). split; [assumption|].
      intros u K. apply added_app. left. now apply H2.
  - intros _. apply added_app. right. now left.
Qed.

Lemma after_snoc v calls c : after_calls v (calls ++ [c]) = fst (do_call (after_calls v calls) c).
Proof. unfold SpecManifest.after_calls. now rewrite fold_left_app. Qed.
Lemma outcomes_snoc v calls c : outcomes v (calls ++ [c]) = outcomes v calls ++ [snd (do_call (after_calls v calls) c)].
Proof.
  revert v. induction calls as [|x calls IH]; intros v; [reflexivity|]. cbn [app SpecManifest.outcomes]. now rewrite IH.
Qed.
Lemma outcomes_length v calls : length (outcomes v calls) = length calls.
Proof. revert v. induction calls as [|x calls IH]; intros v; [reflexivity|]. cbn. now rewrite IH. Qed.

Lemma history_ok calls : proper calls -> exists h, after_calls v_empty calls = run h /\ fresh tk h /\ accounts calls h /\
  forall i c, nth_error calls i = Some c -> nth_error (outcomes v_empty calls) i = Some (Ok tt) -> added h (mc_tag c).
Proof.
  induction calls as [|c calls IH] using rev_ind; intros P.
  - exists []. split; [reflexivity|]. split; [split; constructor|]. split; [intros ? ? ? []|].
    intros [|i] c K; discriminate.
  - destruct (IH (proper_snoc _ _ P)) as [h [E [F [A Hd]]]].
    destruct (call_ok calls c h P F A) as [h' [E' [F' [A' Hd']]]].
    exists (h ++ h'). rewrite after_snoc, outcomes_snoc, E. split; [assumption|]. split; [assumption|]. split; [assumption|].
    intros i x Hx Ho. destruct (Nat.lt_ge_cases i (length calls)) as [L|L].
    + rewrite nth_error_app1 in Hx by assumption. rewrite nth_error_app1 in Ho by now rewrite outcomes_length.
      apply added_app. left. eapply Hd; eauto.
    + rewrite nth_error_app2 in Hx by assumption. rewrite nth_error_app2 in Ho by now rewrite outcomes_length.
      rewrite outcomes_length in Ho. destruct (i - length calls) as [|j]; [|destruct j; discriminate].
      cbn in Hx, Ho. injection Hx as <-. injection Ho as Ho. auto.
Qed.

Lemma mc_tag_inj calls p c : NoDup (map mc_tag calls) -> In p calls -> In c calls -> mc_tag p = mc_tag c -> p = c.
Proof.
  induction calls as [|x calls IH]; intros N Hp Hc E; [destruct Hp|]. cbn in N. inversion N as [|? ? N1 N2]; subst.
  destruct Hp as [<-|Hp], Hc as [<-|Hc]; auto.
  - exfalso; apply N1. rewrite E. now apply in_map.
  - exfalso; apply N1. rewrite <- E. now apply in_map.
Qed.

Theorem manifests_ok calls i c : proper calls -> nth_error calls i = Some c ->
  nth_error (outcomes v_empty calls) i = Some (Ok tt) ->
  get_manifest re_w tk HS DS TR (after_calls v_empty calls) (mc_tag c) = Ok (as_dict (mc_files c)) /\
  forall name t, In (name, t) (mc_files c) -> get (after_calls v_empty calls) t = Ok (Some (content t)).
Proof.
  intros P Hi Ho. destruct (history_ok calls P) as [h [E [F [A Hd]]]]. rewrite E.
  pose proof (nth_error_In _ _ Hi) as Hc.
  destruct (added_In h _ (Hd i c Hi Ho)) as [b [base Hin]].
  destruct (A _ _ _ Hin) as [[p [Hp [Ht [Hdoc Hu]]]]|[K _]].
  2: { exfalso. exact (p_apart _ _ _ P c Hc K). }
  assert (p = c) as -> by (symmetry; apply (mc_tag_inj calls); auto; apply (p_tags _ _ _ P)).
  split.
  - unfold get_manifest. rewrite (get_run h _ _ _ F Hin). cbn [bind].
    destruct (docs_ok (mc_files c) (p_files _ _ _ P c Hc)) as [doc [D1 [D2 _]]].
    rewrite Hdoc in D1. now injection D1 as ->.
  - intros name t Hnt. pose proof (In_dvalues _ _ _ Hnt) as Hv.
    destruct (added_In h t (Hu t Hv)) as [bt [baset Hint]].
    rewrite (get_run h _ _ _ F Hint).
    destruct (A _ _ _ Hint) as [[p [Hp' [Ht' _]]]|[_ ->]]; [|reflexivity].
    exfalso. apply (p_apart _ _ _ P p Hp'). rewrite <- Ht'. exists c. auto.
Qed.

(** tags that are not those of manifests *)
Theorem unknown_manifest calls t : proper calls -> ~ In t (map mc_tag calls) -> ~ file_tag calls t ->
  get_manifest re_w tk HS DS TR (after_calls v_empty calls) t = Err AttributeError.
Proof.
  intros P Hm Hf. destruct (history_ok calls P) as [h [E [F [A _]]]]. rewrite E.
  unfold get_manifest. rewrite (get_run_none h t F); [reflexivity|].
  intros K. apply added_In in K as [b [base K]]. destruct (A _ _ _ K) as [[q [Hq [-> _]]]|[K' _]]; [|exact (Hf K')].
  apply Hm. now apply in_map.
Qed.
Theorem file_as_manifest calls i c name t : proper calls -> nth_error calls i = Some c ->
  nth_error (outcomes v_empty calls) i = Some (Ok tt) -> In (name, t) (mc_files c) -> ~ is_utf8 (content t) ->
  get_manifest re_w tk HS DS TR (after_calls v_empty calls) t = Err UnicodeDecodeError.
Proof.
  intros P Hi Ho Hin Hu. unfold get_manifest. rewrite (proj2 (manifests_ok calls i c P Hi Ho) name t Hin).
  cbn [bind]. unfold doc_to_manifest. destruct (utf8_decode (content t)) as [l|] eqn:D; [|reflexivity].
  exfalso. apply Hu, is_utf8_decode. now exists l.
Qed.

(** a manifest with a file that its base does not have is refused *)
Theorem new_file_refused calls c i p name t : proper (calls ++ [c]) ->
  nth_error calls i = Some p -> nth_error (outcomes v_empty calls) i = Some (Ok tt) ->
  mc_base c = Some (mc_tag p) ->
  In (name, t) (mc_files c) -> ~ In name (dkeys (mc_files p)) ->
  ~ file_tag calls t -> (forall name', In (name', t) (mc_files c) -> name' = name) ->
  snd (do_call (after_calls v_empty calls) c) = Err KeyError.
Proof.
  intros P Hi Ho Hb Hin Hn Hf Hu. assert (Hc : In c (calls ++ [c])) by (apply in_app_iff; right; now left).
  destruct (history_ok calls (proper_snoc _ _ P)) as [h [E [F [A Hd]]]]. rewrite E.
  pose proof (Hd i p Hi Ho) as Hap.
  assert (Eb : base_manifest (run h) (mc_base c) = Ok (Some (as_dict (mc_files p)))).
  { destruct (base_manifest_ok calls c h P F A) as [K|[q [Hq [Hbq [_ [K _]]]]]].
    - exfalso. rewrite Hb in K. cbn in K. destruct (added_In h _ Hap) as [b [base Hb']].
      rewrite (get_run h _ _ _ F Hb') in K. cbn [bind] in K.
      destruct (A _ _ _ Hb') as [[q [Hq [Ht [Hdoc _]]]]|[K' _]].
      + destruct (docs_ok (mc_files q)) as [doc [D1 [D2 _]]].
        { apply (p_files _ _ _ P), in_app_iff. now left. }
        rewrite Hdoc in D1. injection D1 as ->. rewrite D2 in K. discriminate.
      + destruct (p_base _ _ _ P c _ Hc Hb) as [_ Q]. apply Q, file_tag_snoc. now left.
    - rewrite Hb in Hbq. injection Hbq as Hbq.
      assert (p = q) as -> by (apply (mc_tag_inj calls); auto; [apply (p_tags _ _ _ (proper_snoc _ _ P))|eapply nth_error_In; eauto]).
      exact K. }
  destruct (base_tags_added calls c h _ P F A Eb) as [B1 B2].
  rewrite do_call_unfold, Eb.
  assert (K : snd (snd (add_files (mc_files c) (mc_contents c) (Some (as_dict (mc_files p))) (run h))) = Err KeyError).
  { apply (add_files_missing content (mc_contents c) (fun t b => p_contents _ _ _ P c t b Hc) _ _ h name t F); auto.
    - rewrite file_base.
      + replace (dget (mc_files p) name) with (@None tag); [reflexivity|]. symmetry. now apply dget_None.
      + apply (p_files _ _ _ P), in_app_iff. left. eapply nth_error_In; eauto.
    - intros K. apply added_In in K as [b [base K]]. destruct (A _ _ _ K) as [[q [Hq [Ht _]]]|[K' _]]; [|exact (Hf K')].
      apply (p_apart _ _ _ P q); [apply in_app_iff; now left|]. rewrite <- Ht. apply file_tag_snoc. right.
      now apply In_dvalues in Hin. }
  destruct (snd (add_files (mc_files c) (mc_contents c) (Some (as_dict (mc_files p))) (run h))) as [v1 r1].
  cbn [snd] in K. now subst r1.
Qed.
End Calls.
End M.
