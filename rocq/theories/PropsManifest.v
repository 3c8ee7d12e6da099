(** Theorems C58-C60, C64 and C65 (manifests).  Versions are kept in dicts and a
    MemoryTree; [re_w] stands for the character class [\w] of the symbol
    tokenizer. *)
From Coq Require Import ZArith Lia.
From Verif Require Import Base Tokenizers SpecTokenizers Versions SpecVersions VersionsInv
  Json Manifest SpecManifest JsonProofs ManifestDocs Utf8Proofs ManifestProofs ManifestChain.
Local Open Scope Z_scope.

Section Theorems.
Variable re_w : Z -> bool.
Variable tk : tkind.
Notation D := (dict_store tag).
Notation M := (memory_tree tag).
Notation get := (get re_w tk D D M).
Notation get_manifest := (get_manifest re_w tk D D M).
Notation do_call := (do_call re_w tk D D M).
Notation after := (after_calls re_w tk D D M v_empty).
Notation outcomes := (outcomes re_w tk D D M v_empty).

(** C58: whatever calls came before and after, and whether or not those succeeded,
    a manifest that was added comes back and its files are retrievable. *)
Theorem C58_manifests : forall content calls i c, tk <> KLine -> proper tk content calls ->
  nth_error calls i = Some c -> nth_error (outcomes calls) i = Some (Ok tt) ->
  get_manifest (after calls) (mc_tag c) = Ok (as_dict (mc_files c)) /\
  forall name t, In (name, t) (mc_files c) -> get (after calls) t = Ok (Some (content t)).
Proof. exact (fun content calls i c H => manifests_ok re_w tk D D M dict_law dict_law memory_law H content calls i c). Qed.
(** and manifests in a row, each changing or dropping files of the one before, are
    all added *)
Theorem C58_chain_succeeds : forall content calls, tk <> KLine -> chain calls -> proper tk content calls ->
  Forall (fun o => o = Ok tt) (outcomes calls).
Proof. exact (fun content calls H => chain_ok re_w tk D D M dict_law dict_law memory_law H content calls). Qed.

(** asking for a manifest under a tag that no call named raises AttributeError, and
    under the tag of a file that is not UTF-8 UnicodeDecodeError *)
Theorem C58_unknown : forall content calls t, tk <> KLine -> proper tk content calls ->
  ~ In t (map mc_tag calls) -> ~ file_tag calls t ->
  get_manifest (after calls) t = Err AttributeError.
Proof. exact (fun content calls t H => unknown_manifest re_w tk D D M dict_law dict_law memory_law H content calls t). Qed.
Theorem C58_not_a_manifest : forall content calls i c name t, tk <> KLine -> proper tk content calls ->
  nth_error calls i = Some c -> nth_error (outcomes calls) i = Some (Ok tt) ->
  In (name, t) (mc_files c) -> ~ is_utf8 (content t) ->
  get_manifest (after calls) t = Err UnicodeDecodeError.
Proof. exact (fun content calls i c name t H => file_as_manifest re_w tk D D M dict_law dict_law memory_law H content calls i c name t). Qed.

(** C59 is false (see [C59_new_file_refuted]): a manifest with a new version of a
    file that its base manifest does not have is always refused. *)
Theorem C59_new_file_fails_partial : forall content calls c i p name t, tk <> KLine ->
  proper tk content (calls ++ [c]) ->
  nth_error calls i = Some p -> nth_error (outcomes calls) i = Some (Ok tt) ->
  mc_base c = Some (mc_tag p) ->
  In (name, t) (mc_files c) -> ~ In name (dkeys (mc_files p)) ->
  ~ file_tag calls t -> (forall name', In (name', t) (mc_files c) -> name' = name) ->
  snd (do_call (after calls) c) = Err KeyError.
Proof.
  exact (fun content calls c i p name t H => new_file_refused re_w tk D D M dict_law dict_law memory_law H content calls c i p name t).
Qed.
End Theorems.
Print Assumptions C58_manifests.
Print Assumptions C58_chain_succeeds.
Print Assumptions C58_unknown.
Print Assumptions C58_not_a_manifest.
Print Assumptions C59_new_file_fails_partial.

(** C60 for strings without a high surrogate directly before a low one.  Tags may
    be ints.  What is missing: [C60_surrogates_refuted]. *)
Theorem C60_documents_partial : forall m, manifest_ok m -> exists doc,
  manifest_to_doc m = Ok doc /\ doc_to_manifest doc = Ok (as_dict m).
Proof.
  exact (fun m H => match docs_ok m H with ex_intro _ doc (conj D1 (conj D2 _)) => ex_intro _ doc (conj D1 D2) end).
Qed.
(** and no other string comes back *)
Theorem C60_exactly : forall s doc j, chars s ->
  manifest_to_doc [(TStr [97], TStr s)] = Ok doc -> doc_to_manifest doc = Ok j ->
  (j = as_dict [(TStr [97], TStr s)] <-> ~ has_pair s).
Proof. exact string_comes_back. Qed.
Print Assumptions C60_documents_partial.
Print Assumptions C60_exactly.

(** C64: a name that is an int comes back as a string, so C64 is false;
    [C60_documents_partial] is what holds: names that are strings, tags that are
    strings or ints. *)
Theorem C64_int_name_partial : forall n t doc, tag_ok t -> manifest_to_doc [(TInt n, t)] = Ok doc ->
  exists s, doc_to_manifest doc = Ok (JObj [(s, json_of t)]).
Proof. exact (fun n t doc Ht D => ex_intro _ _ (int_name_lost n t doc Ht D)). Qed.
Print Assumptions C64_int_name_partial.

(** C65: the document has a line for every file.  The line is the same in every
    manifest, up to its first and last character, and differs for different
    entries. *)
Theorem C65_one_line_per_file : exists line : tag * tag -> list Z,
  (forall e e', manifest_ok [e] -> manifest_ok [e'] -> line e = line e' -> e = e') /\
  forall m doc, manifest_ok m -> manifest_to_doc m = Ok doc ->
    length (split_nl doc) = Nat.max 1 (length m) /\
    forall i e, nth_error m i = Some e -> nth_error (split_nl doc) i =
      Some ((if (i =? 0)%nat then [123] else []) ++ line e ++ (if (S i =? length m)%nat then [125] else [44])).
Proof. exact (ex_intro _ dump_item (conj dump_item_inj doc_lines)). Qed.
Print Assumptions C65_one_line_per_file.

(** * Refutations *)
(** the two characters U+D800 U+DC00 come back as the one character U+10000 *)
Theorem C60_surrogates_refuted : exists m doc j, NoDup (dkeys m) /\
  (forall k t, In (k, t) m -> exists s u, k = TStr s /\ t = TStr u /\ chars s /\ chars u) /\
  manifest_to_doc m = Ok doc /\ doc_to_manifest doc = Ok j /\ j <> as_dict m.
Proof.
  exists [(TStr [97], TStr [55296; 56320])], (match manifest_to_doc [(TStr [97], TStr [55296; 56320])] with Ok d => d | _ => [] end),
    (JObj [([97], JStr [65536])]).
  split; [repeat constructor; intros []|]. split.
  - intros k t [K|[]]. injection K as <- <-. exists [97], [55296; 56320]. repeat split; repeat constructor; lia.
  - split; [vm_compute; reflexivity|]. split; [vm_compute; reflexivity|]. vm_compute. discriminate.
Qed.
Print Assumptions C60_surrogates_refuted.

(** [{1: "a"}] comes back as [{"1": "a"}] *)
Theorem C64_int_name_refuted : exists m doc s, m = [(TInt 1, TStr [97])] /\
  manifest_to_doc m = Ok doc /\ doc_to_manifest doc = Ok (JObj [(s, JStr [97])]).
Proof.
  exists [(TInt 1, TStr [97])], [123; 34; 49; 34; 58; 34; 97; 34; 125], [49]. vm_compute. repeat split.
Qed.
Print Assumptions C64_int_name_refuted.

(** * Concrete histories *)
Notation S1 a := (TStr [a]).
Notation D := (dict_store tag).
Notation M := (memory_tree tag).
Notation after0 := (after_calls (fun _ => false) KNull D D M v_empty).
Notation outcomes0 := (outcomes (fun _ => false) KNull D D M v_empty).

(** files a and b; the second manifest changes a, keeps b *)
Definition ex_content (t : tag) : list Z := match t with TStr [c] => [c; c; 10] | _ => [] end.
Definition ex_contents : dict tag (list Z) :=
  [(S1 49, [49; 49; 10]); (S1 50, [50; 50; 10]); (S1 51, [51; 51; 10])].
Definition ex_m0 := mkCall (S1 65) [(S1 97, S1 49); (S1 98, S1 50)] ex_contents None.
Definition ex_m1 := mkCall (S1 66) [(S1 97, S1 51); (S1 98, S1 50)] ex_contents (Some (S1 65)).
(** and a third one that has a new file c *)
Definition ex_m2 := mkCall (S1 67) [(S1 97, S1 51); (S1 99, S1 52)] ((S1 52, [52; 52; 10]) :: ex_contents) (Some (S1 66)).

Ltac nodup_tac := cbn; repeat (apply NoDup_cons; [cbn; intuition discriminate|]); apply NoDup_nil.
Ltac in_cases := repeat match goal with
  | H : In _ (_ :: _) |- _ => destruct H as [H|H]
  | H : In _ [] |- _ => destruct H
  | H : _ \/ _ |- _ => destruct H as [H|H]
  | H : False |- _ => destruct H
  end.
Lemma ex_text c : 32 <= c <= 126 -> text [c].
Proof.
  intros H. split; [repeat constructor; lia|]. intros [a [u [w [b [K _]]]]]. destruct a as [|? [|? ?]]; discriminate.
Qed.
Ltac manifest_tac :=
  split; [nodup_tac|];
  let k := fresh in let t := fresh in let K := fresh in
  intros k t K; cbn in K; in_cases; injection K as <- <-;
  (split; [eexists; split; [reflexivity|apply ex_text; lia]|cbn; apply ex_text; lia]).
Lemma ex_proper : proper KNull ex_content [ex_m0; ex_m1; ex_m2].
Proof.
  assert (Ft : forall t, file_tag [ex_m0; ex_m1; ex_m2] t -> In t [S1 49; S1 50; S1 51; S1 52]).
  { intros t [c [Hc Ht]]. in_cases; subst c; cbn in *; in_cases; subst; tauto. }
  constructor.
  - nodup_tac.
  - intros c Hc K. apply Ft in K. in_cases; subst c; discriminate.
  - intros c b Hc Hb. in_cases; subst c; cbn in Hb; try discriminate; injection Hb as <-;
      (split; [discriminate|intros K; apply Ft in K; in_cases; discriminate]).
  - intros c Hc. in_cases; subst c; manifest_tac.
  - intros c doc Hc. in_cases; subst c; intros K; vm_compute in K; injection K as <-; vm_compute; reflexivity.
  - intros c t b Hc Hb. in_cases; subst c; apply dget_In in Hb; cbn in Hb; in_cases; injection Hb as <- <-;
      (split; [reflexivity|split; [split; [repeat (constructor; [lia|]); constructor|exact I]|reflexivity]]).
Qed.
(** C58: the hypotheses hold of this history, with the results *)
Example C58_example : nth_error (outcomes0 [ex_m0; ex_m1; ex_m2]) 1 = Some (Ok tt) /\
  get_manifest (fun _ => false) KNull D D M (after0 [ex_m0; ex_m1; ex_m2]) (S1 66) =
    Ok (JObj [([97], JStr [51]); ([98], JStr [50])]) /\
  get (fun _ => false) KNull D D M (after0 [ex_m0; ex_m1; ex_m2]) (S1 51) = Ok (Some [51; 51; 10]).
Proof. vm_compute. repeat split. Qed.
Example C58_chain_example : chain [ex_m0; ex_m1] /\ outcomes0 [ex_m0; ex_m1] = [Ok tt; Ok tt].
Proof.
  split; [|vm_compute; reflexivity]. apply (chain_next [] ex_m0 ex_m1).
  - apply chain_one; [reflexivity|nodup_tac|].
    cbn. intros t K. in_cases; subst; vm_compute; discriminate.
  - split; [reflexivity|]. split; [nodup_tac|].
    intros name t K. cbn in K. in_cases; injection K as <- <-.
    + split; [now left|]. right. split; [|vm_compute; discriminate].
      intros [c [Hc K]]. cbn in Hc. in_cases; subst c; cbn in K; in_cases; discriminate.
    + split; [right; now left|]. left. right. now left.
Qed.
Example C58_unknown_example : proper KNull ex_content [ex_m0; ex_m1; ex_m2] /\
  ~ In (S1 90) (map mc_tag [ex_m0; ex_m1; ex_m2]) /\ ~ file_tag [ex_m0; ex_m1; ex_m2] (S1 90) /\
  get_manifest (fun _ => false) KNull D D M (after0 [ex_m0; ex_m1; ex_m2]) (S1 90) = Err AttributeError.
Proof.
  split; [exact ex_proper|]. split; [cbn; intuition discriminate|]. split; [|vm_compute; reflexivity].
  intros [c [Hc K]]. cbn in Hc. in_cases; subst c; cbn in K; in_cases; discriminate.
Qed.
(** a file that holds the byte 255 *)
Definition ex_bin := mkCall (S1 65) [(S1 97, S1 255)] [(S1 255, [255; 255; 10])] None.
Example C58_not_a_manifest_example : proper KNull ex_content [ex_bin] /\
  nth_error (outcomes0 [ex_bin]) 0 = Some (Ok tt) /\ In (S1 97, S1 255) (mc_files ex_bin) /\
  ~ is_utf8 (ex_content (S1 255)) /\
  get_manifest (fun _ => false) KNull D D M (after0 [ex_bin]) (S1 255) = Err UnicodeDecodeError.
Proof.
  split; [|split; [vm_compute; reflexivity|split; [now left|split; [|vm_compute; reflexivity]]]].
  - constructor.
    + nodup_tac.
    + intros c Hc [x [Hx K]]. in_cases; subst c x; cbn in K; in_cases; discriminate.
    + intros c b Hc Hb. in_cases; subst c; discriminate.
    + intros c Hc. in_cases; subst c. split; [nodup_tac|]. intros k t K. cbn in K. in_cases. injection K as <- <-.
      assert (T : forall c, 32 <= c <= 255 -> text [c]).
      { intros c H. split; [repeat constructor; lia|]. intros [a [u [w [b [K _]]]]]. destruct a as [|? [|? ?]]; discriminate. }
      split; [eexists; split; [reflexivity|apply T; lia]|cbn; apply T; lia].
    + intros c doc Hc. in_cases; subst c; intros K; vm_compute in K; injection K as <-; vm_compute; reflexivity.
    + intros c t b Hc Hb. in_cases; subst c. apply dget_In in Hb; cbn in Hb; in_cases; injection Hb as <- <-.
      split; [reflexivity|split; [split; [repeat (constructor; [lia|]); constructor|exact I]|reflexivity]].
  - intros K. apply is_utf8_decode in K as [l K]. vm_compute in K. discriminate.
Qed.
(** C59: the third manifest is refused, although everything about it is in order *)
Theorem C59_new_file_refuted : exists content calls c p, proper KNull content (calls ++ [c]) /\
  In p calls /\ Forall (fun o => o = Ok tt) (outcomes0 calls) /\ mc_base c = Some (mc_tag p) /\
  (forall t, In t (dvalues (mc_files c)) -> dget (mc_contents c) t <> None) /\
  snd (do_call (fun _ => false) KNull D D M (after0 calls) c) = Err KeyError.
Proof.
  exists ex_content, [ex_m0; ex_m1], ex_m2, ex_m1. split; [exact ex_proper|]. split; [right; now left|].
  split; [vm_compute; repeat constructor|]. split; [reflexivity|]. split; [|vm_compute; reflexivity].
  intros t K. cbn in K. in_cases; subst; vm_compute; discriminate.
Qed.
Print Assumptions C59_new_file_refuted.
Example C59_example : In (S1 99, S1 52) (mc_files ex_m2) /\ ~ In (S1 99) (dkeys (mc_files ex_m1)) /\
  ~ file_tag [ex_m0; ex_m1] (S1 52).
Proof.
  split; [right; now left|]. split; [cbn; intuition discriminate|].
  intros [c [Hc K]]. cbn in Hc. in_cases; subst c; cbn in K; in_cases; discriminate.
Qed.

(** C60: a name with a quote, an accent and a character beyond U+FFFF, an int tag *)
Definition ex_odd : manifest := [(TStr [34; 233; 128512], TInt (-120)); (S1 98, TStr [10; 127; 55296; 97])].
Example C60_example : manifest_ok ex_odd /\
  match manifest_to_doc ex_odd with Ok doc => doc_to_manifest doc | Err e => Err e end =
    Ok (JObj [([34; 233; 128512], JInt (-120)); ([98], JStr [10; 127; 55296; 97])]).
Proof.
  split; [|vm_compute; reflexivity]. split; [nodup_tac|].
  assert (T : forall s, chars s -> Forall (fun c => ~ low c) s -> text s).
  { intros s Hs Hl. split; [assumption|]. intros [a [u [w [b [-> [_ Hw]]]]]].
    rewrite Forall_forall in Hl. apply (Hl w); [apply in_app_iff; right; right; now left|assumption]. }
  intros k t K. cbn in K. in_cases; injection K as <- <-.
  - split; [|exact I]. eexists. split; [reflexivity|]. apply T; repeat constructor; unfold low; lia.
  - split; [eexists; split; [reflexivity|]|cbn]; apply T; repeat constructor; unfold low; lia.
Qed.
Example C65_example : match manifest_to_doc ex_odd with Ok doc => length (split_nl doc) | Err _ => O end = 2%nat.
Proof. vm_compute. reflexivity. Qed.
(** the base of a file when the base manifest is a document that somebody else wrote: a
    value null is no base, a list is refused *)
Example C58_foreign_base : let name := TStr [97] in
  base_of_file (Some (JObj [([97], JNull)])) name = Ok None /\
  base_of_file (Some (JObj [([97], JArr [])])) name = Err TypeError /\
  base_of_file (Some (JArr [])) name = Err TypeError.
Proof. repeat split. Qed.
