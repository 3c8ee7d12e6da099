(** C72 (tags that are not str in the database classes), and C58 on the database classes. *)
From Coq Require Import Lia.
From Verif Require Import Base Tokenizers SpecTokenizers Tree Versions SpecVersions VersionsInv VersionsMore DbTree DbTreeProofs
  DbVersions Json Manifest SpecManifest JsonProofs ManifestProofs ManifestChain TextTags TextTagsProofs.
Local Open Scope nat_scope.

(** C72, what holds: in DBCollections with a DBTree every version comes back under its tag, be
    it an int or a str, provided no two tags have the same text and no version is its own
    base.  The base is reported as a str.  What is missing: [C72_int_tags_refuted],
    [C72_same_text_refuted], [C72_base_refuted]. *)
Theorem C72_text_tags_partial : forall re_w tk place1 place2 h, tk <> KLine -> fresh tk (map in_text h) ->
  let v := run re_w tk (text_store place1) (text_store place2) text_tree v_empty h in
  (forall t b base, In (t, b, base) h -> get re_w tk (text_store place1) (text_store place2) text_tree v t = Ok (Some b)) /\
  (forall t, ~ In (column_text t) (map (fun a => column_text (tag_of a)) h) ->
     get re_w tk (text_store place1) (text_store place2) text_tree v t = Ok None) /\
  (forall t b base, In (t, b, base) h ->
     tr_base text_tree (tree v) t = Ok (option_map (fun k => TStr (column_text k)) base)).
Proof. exact text_tags_ok. Qed.

Notation D := (dict_store tag).
Notation C := (text_store (fun _ => 0)).
(** C72 is false: with a DBTree, but dicts for the versions, the version 1 is lost. *)
Theorem C72_int_tags_refuted : exists h t b base, valid KNull h /\ In (t, b, base) h /\
  get (fun _ => false) KNull D D (memory_tree tag) (run (fun _ => false) KNull D D (memory_tree tag) v_empty h) t = Ok (Some b) /\
  get (fun _ => false) KNull D D text_tree (run (fun _ => false) KNull D D text_tree v_empty h) t = Err KeyError.
Proof.
  exists [(TInt 1, [97%Z], None)], (TInt 1), [97%Z], None. split; [|split; [now left|split; vm_compute; reflexivity]].
  split; [split|].
  - constructor; [intros []|constructor].
  - apply Forall_cons; [|constructor]. cbn. split; [discriminate|]. split; [split; [constructor; [lia|constructor]|exact I]|reflexivity].
  - intros pre a post H. destruct pre as [|p pre]; injection H as <- H; [exact I|destruct pre; discriminate].
Qed.
(** C72 is false: the tags 1 and '1' are different, but the version added first is overwritten
    by the second, although its add raises. *)
Theorem C72_same_text_refuted : exists h t b base, valid KNull h /\ In (t, b, base) h /\
  (let v := run (fun _ => false) KNull C C text_tree v_empty h in
   get (fun _ => false) KNull C C text_tree v t <> Ok (Some b) /\
   add_result (fun _ => false) KNull C C text_tree v (last h (t, b, base)) = Err IntegrityError).
Proof.
  exists [(TInt 1, [97%Z], None); (TStr [49%Z], [98%Z], None)], (TInt 1), [97%Z], None.
  split; [|split; [now left|split; [vm_compute; discriminate|vm_compute; reflexivity]]].
  split; [split|].
  - constructor; [intros [K|[]]; discriminate|constructor; [intros []|constructor]].
  - repeat (apply Forall_cons; [cbn; split; [discriminate|split; [split; [constructor; [lia|constructor]|exact I]|reflexivity]]|]).
    constructor.
  - intros pre a post H. destruct pre as [|p [|p2 pre]]; [injection H as <- _; exact I|injection H as _ <- _; exact I|].
    injection H as _ _ H. destruct pre; discriminate.
Qed.
(** C72 is false: the base 1 is reported as '1'. *)
Theorem C72_base_refuted : exists h t b base, valid KNull h /\ In (t, b, base) h /\
  tr_base text_tree (tree (run (fun _ => false) KNull C C text_tree v_empty h)) t <> Ok base.
Proof.
  exists [(TInt 1, [97%Z], None); (TInt 2, [98%Z], Some (TInt 1))], (TInt 2), [98%Z], (Some (TInt 1)).
  split; [|split; [right; now left|vm_compute; discriminate]].
  split; [split|].
  - constructor; [intros [K|[]]; discriminate|constructor; [intros []|constructor]].
  - repeat (apply Forall_cons; [cbn; split; [discriminate|split; [split; [constructor; [lia|constructor]|exact I]|reflexivity]]|]).
    constructor.
  - intros pre a post H. destruct pre as [|p [|p2 pre]]; [injection H as <- _; exact I| |injection H as _ _ H; destruct pre; discriminate].
    injection H as <- <- _. exists [], [97%Z], None, []. split; [reflexivity|intros []].
Qed.

(** C58 in DBCollections with a DBTree, for tags that are str. *)
Definition str_tag (t : tag) : Prop := match t with TStr _ => True | TInt _ => False end.
Definition str_tags (calls : list mcall) : Prop :=
  forall c, In c calls -> str_tag (mc_tag c) /\ (forall t, In t (dvalues (mc_files c)) -> str_tag t).
Section Db.
Variable re_w : Z -> bool.
Variable tk : tkind.
Variables place1 place2 : rows (K := tag) (V := list Z) -> nat.
Notation H1 := (db_store tag place1).
Notation H2 := (db_store tag place2).
Notation T := (db_tree tag).
Theorem C58_manifests_db : forall content calls i c, tk <> KLine -> str_tags calls -> proper tk content calls ->
  nth_error calls i = Some c -> nth_error (outcomes re_w tk H1 H2 T v_empty calls) i = Some (Ok tt) ->
  get_manifest re_w tk H1 H2 T (after_calls re_w tk H1 H2 T v_empty calls) (mc_tag c) = Ok (as_dict (mc_files c)) /\
  forall name t, In (name, t) (mc_files c) ->
    get re_w tk H1 H2 T (after_calls re_w tk H1 H2 T v_empty calls) t = Ok (Some (content t)).
Proof.
  exact (fun content calls i c H _ => manifests_ok re_w tk H1 H2 T (db_store_law place1) (db_store_law place2) db_law H content calls i c).
Qed.
Theorem C58_chain_db : forall content calls, tk <> KLine -> str_tags calls -> chain calls -> proper tk content calls ->
  Forall (fun o => o = Ok tt) (outcomes re_w tk H1 H2 T v_empty calls).
Proof.
  exact (fun content calls H _ => chain_ok re_w tk H1 H2 T (db_store_law place1) (db_store_law place2) db_law H content calls).
Qed.
End Db.

(** * Examples *)
Definition int_history : list (tag * list Z * option tag) :=
  [(TInt 1, [97%Z], None); (TInt 2, [97; 98]%Z, Some (TInt 1)); (TStr [51%Z], [98%Z], Some (TInt 2))].
Example C72_example : fresh KNull (map in_text int_history) /\
  map (get (fun _ => false) KNull C C text_tree (run (fun _ => false) KNull C C text_tree v_empty int_history))
    [TInt 1; TStr [49%Z]; TInt 2; TInt 3; TInt 4] =
  [Ok (Some [97%Z]); Ok (Some [97%Z]); Ok (Some [97; 98]%Z); Ok (Some [98%Z]); Ok None].
Proof.
  split; [|vm_compute; reflexivity]. split.
  - vm_compute. repeat (apply NoDup_cons; [cbn; intuition discriminate|]). constructor.
  - cbn. repeat (apply Forall_cons; [split; [vm_compute; discriminate|
      split; [split; [repeat (apply Forall_cons; [lia|]); constructor|exact I]|reflexivity]]|]). constructor.
Qed.
Definition db_call : mcall := mkCall (TStr [77%Z]) [(TStr [97%Z], TStr [49%Z])] [(TStr [49%Z], [120; 10]%Z)] None.
Notation P := (db_store tag (fun _ => 0)).
Example C58_db_example : str_tags [db_call] /\ chain [db_call] /\ proper KNull (fun _ => [120; 10]%Z) [db_call] /\
  outcomes (fun _ => false) KNull P P (db_tree tag) v_empty [db_call] = [Ok tt] /\
  get_manifest (fun _ => false) KNull P P (db_tree tag) (after_calls (fun _ => false) KNull P P (db_tree tag) v_empty [db_call])
    (TStr [77%Z]) = Ok (JObj [([97%Z], JStr [49%Z])]).
Proof.
  assert (F : forall t, file_tag [db_call] t -> t = TStr [49%Z]).
  { intros t [c [[<-|[]] Ht]]. cbn in Ht. destruct Ht as [<-|[]]; reflexivity. }
  split; [|split; [|split; [|split; vm_compute; reflexivity]]].
  - intros c [<-|[]]. split; [exact I|]. cbn. intros t [<-|[]]; exact I.
  - apply chain_one; [reflexivity| |]; cbn.
    + constructor; [intros []|constructor].
    + intros t [<-|[]]; vm_compute; discriminate.
  - constructor.
    + constructor; [intros []|constructor].
    + intros c [<-|[]] K. apply F in K. discriminate.
    + intros c b [<-|[]] K; discriminate.
    + intros c [<-|[]]. split; [constructor; [intros []|constructor]|]. cbn. intros k t [[= <- <-]|[]].
      assert (Q : forall x, (x = 97 \/ x = 49)%Z -> text [x]).
      { intros x Hx. split; [constructor; [lia|constructor]|].
        intros [a [u [w [b [Hs _]]]]]. destruct a as [|? [|? ?]]; discriminate. }
      split; [exists [97%Z]; split; [reflexivity|apply Q; auto]|apply Q; auto].
    + intros c doc [<-|[]] K. vm_compute in K. injection K as <-. vm_compute. reflexivity.
    + intros c t b [<-|[]] K. apply dget_In in K. cbn in K. destruct K as [K|[]]. injection K as <- <-.
      split; [reflexivity|]. split; [split; [repeat (apply Forall_cons; [lia|]); constructor|exact I]|reflexivity].
Qed.
Print Assumptions C72_text_tags_partial.
Print Assumptions C72_int_tags_refuted.
Print Assumptions C72_same_text_refuted.
Print Assumptions C72_base_refuted.
Print Assumptions C58_manifests_db.
Print Assumptions C58_chain_db.
