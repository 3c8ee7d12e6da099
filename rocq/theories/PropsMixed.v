(** Theorems C131: stores written with one tokenizer and read with another.  [Versions]
    (versions.py:25-32) keeps no note of its tokenizer in the stores or the tree. *)
From Coq Require Import ZArith Lia.
From Verif Require Import Base Changesets Serialize Tokenizers SpecTokenizers SpecTokens SpecBytes Tree
  Versions SpecVersions VersionsInv DbTree SpecDb DbTreeProofs DbVersions SpecMixed VersionsMixed.
Local Open Scope Z_scope.

(** C131, in full, would have every version come back whichever tokenizers the stores are
    opened with.  No two tokenizers can be exchanged: what comes back is silently wrong. *)
Definition history : list (adding Z) := [(0, [195; 169; 36; 36; 10; 36], None); (1, [195; 169; 36; 36; 10; 45], Some 0)].
(** the letters, digits and underscore of ASCII, and the letters of Latin-1 *)
Definition latin_w (c : Z) : bool :=
  ((48 <=? c) && (c <=? 57)) || ((65 <=? c) && (c <=? 90)) || (c =? 95) || ((97 <=? c) && (c <=? 122)) ||
  ((192 <=? c) && (c <=? 255) && negb (c =? 215) && negb (c =? 247)).
Theorem C131_refuted : let re_w := latin_w in forall k k', k <> k' ->
  exists h t b base b', (forall j, valid j h) /\ In (t, b, base) h /\
    let v := run re_w k (dict_store Z) (dict_store Z) (memory_tree Z) v_empty h in
    get re_w k _ _ _ v t = Ok (Some b) /\ get re_w k' _ _ _ v t = Ok (Some b') /\ b' <> b.
Proof.
  intros re_w k k' Hk.
  assert (V : forall j, valid j history).
  { assert (U : is_utf8 [195; 169; 36; 36; 10; 36] /\ is_utf8 [195; 169; 36; 36; 10; 45]).
    { split; [exists [233; 36; 36; 10; 36]|exists [233; 36; 36; 10; 45]]; (split; [|reflexivity]);
        repeat constructor; unfold scalar_value; lia. }
    intros j. split.
    - split; [repeat constructor; cbn; intuition lia|].
      repeat constructor; try discriminate; try (cbn; lia); try (cbn; repeat constructor; lia); destruct j; cbn; auto; tauto.
    - intros [|a [|a' [|? pre]]] b post; cbn; intros [= <- ?]; try exact Logic.I.
      + subst. exists [], [195; 169; 36; 36; 10; 36], None, []. split; [reflexivity|]. intros []. }
  assert (X : exists b', let v := run re_w k (dict_store Z) (dict_store Z) (memory_tree Z) v_empty history in
    get re_w k _ _ _ v 0 = Ok (Some [195; 169; 36; 36; 10; 36]) /\ get re_w k' _ _ _ v 0 = Ok (Some b') /\ b' <> [195; 169; 36; 36; 10; 36]).
  { destruct k, k'; try congruence.
    all: eexists; cbv zeta; split; [vm_compute; reflexivity|]; split; [vm_compute; reflexivity|discriminate]. }
  destruct X as [b' X]. exists history, 0, [195; 169; 36; 36; 10; 36], None, b'. split; [exact V|]. split; [now left|exact X].
Qed.

Section Theorems.
Context {K : Type} {E : Teq K} {O : TeqOk K}.
Variable re_w : Z -> bool.
Notation D := (dict_store K).
Notation C := (db_store K).
Notation M := (memory_tree K).
Notation T := (db_tree K).

(** C131: the tokenizers in [P] can be exchanged for contents that all of them cut into the
    same tokens.  The stores and the tree are those of a history with any one of them, every
    version comes back whichever reads, and the next add does the same whichever makes it.
    The line tokenizer is left out. *)
Theorem C131_partial : forall (P : tkind -> Prop), (forall k, P k -> k <> KLine) -> forall (h : list (tkind * adding K)) k, P k ->
  Forall (fun a => P (fst a) /\ same_tokens re_w P (bytes_of (snd a))) h -> fresh KNull (map snd h) ->
  let v := run_mixed re_w D D M h in
  v = run re_w k D D M v_empty (map snd h) /\
  (forall t b base, In (t, b, base) (map snd h) -> get re_w k D D M v t = Ok (Some b)) /\
  (forall t, ~ added (map snd h) t -> get re_w k D D M v t = Ok None) /\
  (forall k' a, P k' -> same_tokens re_w P (bytes_of a) -> fresh KNull (map snd h ++ [a]) ->
     add re_w k D D M (tag_of a) (bytes_of a) (base_of a) v = add re_w k' D D M (tag_of a) (bytes_of a) (base_of a) v).
Proof. exact (mixed_ok re_w D D M dict_law dict_law memory_law). Qed.
Theorem C131_db_partial : forall place1 place2 (P : tkind -> Prop), (forall k, P k -> k <> KLine) -> forall (h : list (tkind * adding K)) k, P k ->
  Forall (fun a => P (fst a) /\ same_tokens re_w P (bytes_of (snd a))) h -> fresh KNull (map snd h) ->
  let v := run_mixed re_w (C place1) (C place2) T h in
  v = run re_w k (C place1) (C place2) T v_empty (map snd h) /\
  (forall t b base, In (t, b, base) (map snd h) -> get re_w k (C place1) (C place2) T v t = Ok (Some b)) /\
  (forall t, ~ added (map snd h) t -> get re_w k (C place1) (C place2) T v t = Ok None) /\
  (forall k' a, P k' -> same_tokens re_w P (bytes_of a) -> fresh KNull (map snd h ++ [a]) ->
     add re_w k (C place1) (C place2) T (tag_of a) (bytes_of a) (base_of a) v =
     add re_w k' (C place1) (C place2) T (tag_of a) (bytes_of a) (base_of a) v).
Proof. exact (fun place1 place2 => mixed_ok re_w (C place1) (C place2) T (db_store_law place1) (db_store_law place2) db_law). Qed.

(** for example bytes and characters on ASCII contents *)
Theorem C131_ascii_partial : forall (h : list (tkind * adding K)) k, k = KNull \/ k = KChar ->
  Forall (fun a => (fst a = KNull \/ fst a = KChar) /\ ascii (bytes_of (snd a))) h -> fresh KNull (map snd h) ->
  let v := run_mixed re_w D D M h in
  v = run re_w k D D M v_empty (map snd h) /\
  forall t b base, In (t, b, base) (map snd h) -> get re_w k D D M v t = Ok (Some b).
Proof. exact (mixed_ascii re_w D D M dict_law dict_law memory_law). Qed.
Theorem C131_ascii_db_partial : forall place1 place2 (h : list (tkind * adding K)) k, k = KNull \/ k = KChar ->
  Forall (fun a => (fst a = KNull \/ fst a = KChar) /\ ascii (bytes_of (snd a))) h -> fresh KNull (map snd h) ->
  let v := run_mixed re_w (C place1) (C place2) T h in
  v = run re_w k (C place1) (C place2) T v_empty (map snd h) /\
  forall t b base, In (t, b, base) (map snd h) -> get re_w k (C place1) (C place2) T v t = Ok (Some b).
Proof. exact (fun place1 place2 => mixed_ascii re_w (C place1) (C place2) T (db_store_law place1) (db_store_law place2) db_law). Qed.
End Theorems.

(** Every tokenizer stores the same changeset for two contents when it cuts each into the
    same tokens; the line tokenizer too. *)
Theorem C131_changeset : forall re_w k k' o m tso tsm, storable KNull o -> storable KNull m ->
  units re_w k (CBytes o) tso -> units re_w k' (CBytes o) tso -> units re_w k (CBytes m) tsm -> units re_w k' (CBytes m) tsm ->
  make_changeset re_w k o m = make_changeset re_w k' o m.
Proof. exact same_changeset. Qed.

(** bytes, characters and words are the same in "x", "x y", "y x", "y" and "y " *)
Definition mixed_history : list (tkind * adding Z) :=
  [(KNull, (0, [120], None)); (KSymbol, (1, [120; 32; 121], Some 0)); (KChar, (2, [121; 32; 120], Some 1));
   (KSymbol, (3, [121], Some 2)); (KNull, (4, [121; 32], Some 3))].
Notation any_plain := (fun k => k <> KLine).
Lemma mixed_tokens b : In b [[120]; [120; 32; 121]; [121; 32; 120]; [121]; [121; 32]] -> same_tokens latin_w any_plain b.
Proof.
  intros Hb. exists (map (fun x => [x]) b). intros k Hk.
  assert (C : concat (map (fun x => [x]) b) = b) by (clear; induction b as [|x b IH]; cbn; congruence).
  assert (A : Forall (fun x => x = 120 \/ x = 121 \/ x = 32) b) by (repeat (destruct Hb as [<-|Hb]; [repeat constructor; auto|]); destruct Hb).
  split; [exact C|]. destruct k; [| |contradiction|]; cbn beta iota.
  - rewrite Forall_forall; intros t Ht; apply in_map_iff in Ht as [x [<- Hx]]; reflexivity.
  - rewrite Forall_forall in *; intros t Ht; apply in_map_iff in Ht as [x [<- Hx]].
    exists x. destruct (A x Hx) as [->|[->| ->]]; (split; [unfold scalar_value; lia|reflexivity]).
  - exists (map (fun x => [x]) b). split; [|split; [|split]].
    + rewrite Forall_forall in *; intros t Ht; apply in_map_iff in Ht as [x [<- Hx]]. constructor; [|constructor]. specialize (A x Hx). unfold scalar_value; lia.
    + rewrite map_map. rewrite Forall_forall in A. apply map_ext_in. intros x Hx. destruct (A x Hx) as [->|[->| ->]]; reflexivity.
    + rewrite Forall_forall in *; intros t Ht; apply in_map_iff in Ht as [x [<- Hx]].
      destruct (A x Hx) as [->|[->| ->]]; [left|left|right].
      * split; [discriminate|]. repeat constructor.
      * split; [discriminate|]. repeat constructor.
      * exists 32. split; [reflexivity|]. intros [W|[W|W]]; discriminate.
    + assert (W32 : ~ word latin_w [32]) by (intros [_ W]; apply Forall_inv in W as [W|[W|W]]; discriminate).
      repeat (destruct Hb as [<-|Hb]); try destruct Hb; cbn [map]; intros u t t' y Hu [W W'];
        repeat (destruct u as [|? u]; cbn in Hu; try discriminate; try (injection Hu as ? Hu; subst; try discriminate; try tauto)).
Qed.
Example C131_example :
  Forall (fun a => any_plain (fst a) /\ same_tokens latin_w any_plain (bytes_of (snd a))) mixed_history /\
  fresh KNull (map snd mixed_history) /\
  let v := run_mixed latin_w (dict_store Z) (dict_store Z) (memory_tree Z) mixed_history in
  map (get latin_w KChar _ _ _ v) [0; 1; 2; 3; 4] = map (fun a => Ok (Some (bytes_of (snd a)))) mixed_history.
Proof.
  split; [|split].
  - repeat constructor; cbn [fst snd]; try discriminate; apply mixed_tokens; cbn; tauto.
  - split; [repeat constructor; cbn; intuition lia|]. repeat constructor; try discriminate; cbn; try lia; repeat constructor; lia.
  - vm_compute. reflexivity.
Qed.

Print Assumptions C131_refuted.
Print Assumptions C131_partial.
Print Assumptions C131_db_partial.
Print Assumptions C131_ascii_partial.
Print Assumptions C131_ascii_db_partial.
Print Assumptions C131_changeset.
