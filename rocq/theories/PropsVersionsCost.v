(** Theorems C109: what is copied when a diff is written and read, and when a version is
    retrieved. *)
From Coq Require Import ZArith Lia.
From Verif Require Import Base Changesets Serialize SpecSerialize SerializeCost SerializeCostProofs
  Tokenizers SpecTokenizers Tree Versions SpecVersions SpecStorage VersionsInv DbTree SpecDb DbVersions
  VersionsCost VersionsCostProofs PropsVersions.
Local Open Scope nat_scope.

(** C109 is false: neither writing nor reading is linear, since the bytes written so far
    and the bytes not yet read are copied with every number. *)
Theorem C109_linear_refuted : forall c, exists p d w r,
  serialize_changeset_n p = (w, Ok d) /\ deserialize_changeset_n d = (r, (p, None)) /\
  c * length d < w /\ c * length d < r.
Proof. exact linear_refuted. Qed.
(** What holds: at most quadratic in the length, and at least quadratic in the number of
    pieces, of all that can be read. *)
Theorem C109_reading_partial : forall s, Forall is_byte s -> let '(n, (items, e)) := deserialize_changeset_n s in
  2 * n <= length s * (length s + 1) /\ length items * (2 * length items + 1) <= n.
Proof. exact reading_cost. Qed.
Theorem C109_writing_partial : forall p n d, serialize_changeset_n p = (n, Ok d) ->
  2 * n <= length d * (length d + 1) /\ (Forall full p -> length p * (2 * length p + 1) <= n + 1).
Proof. exact writing_cost. Qed.
(** These are counts of the programs. *)
Theorem C109_counts : (forall s, snd (deserialize_changeset_n s) = deserialize_changeset s) /\
  (forall p, snd (serialize_changeset_n p) = serialize_changeset p).
Proof. exact (conj deserialize_erase serialize_erase). Qed.
(** To apply a patch copies what comes from the version twice and what comes from the patch
    once. *)
Theorem C109_apply : forall {T} (patch : list (pitem T)) version, snd (apply_n patch version) = apply patch version /\
  fst (apply_n patch version) + list_sum (map (fun i => match i with PData d => length d | PSlice _ => 0 end) patch) =
    2 * length (apply patch version).
Proof. exact @apply_cost. Qed.

Section Theorems.
Context {K : Type} {E : Teq K} {O : TeqOk K}.
Variable re_w : Z -> bool.
Variable tk : tkind.
Notation D := (dict_store K).
Notation C := (db_store K).
Notation M := (memory_tree K).
Notation T := (db_tree K).

(** A retrieval from a history of [length h] versions of at most [B] bytes: at most about
    sqrt(8 * length h) times what reading one diff and applying it take; at least what the
    pieces of the diffs on the way and the tokens of the versions on the way ask for. *)
Theorem C109_retrieval_partial : forall h B, tk <> KLine -> fresh tk h ->
  (forall t b base, In (t, b, base) h -> length b <= B) ->
  let v := run re_w tk D D M v_empty h in
  forall t b base, In (t, b, base) h -> exists n r q, get_n re_w tk D D M v t = (n, Ok (Some b)) /\
    m_path_to (tree v) t = Ok (Some (r :: q)) /\ (length q + 1) * (length q + 3) <= 8 * length h /\
    2 * n <= length q * (let X := (2 * width (Z.of_nat B) + 1) * B in X * (X + 1) + 4 * B) /\
    list_sum (map (fun u => change_count v u * (2 * change_count v u + 1) +
      match get re_w tk D D M v u with Ok (Some b) => token_count re_w tk b | _ => 0 end) q) <= n.
Proof. exact (retrieval_cost_memory re_w tk). Qed.
Theorem C109_retrieval_db_partial : forall place1 place2 h B, tk <> KLine -> fresh tk h ->
  (forall t b base, In (t, b, base) h -> length b <= B) ->
  let v := run re_w tk (C place1) (C place2) T v_empty h in
  forall t b base, In (t, b, base) h -> exists n p,
    get_n re_w tk (C place1) (C place2) T v t = (n, Ok (Some b)) /\
    d_path_to (tree v) t = Ok (Some p) /\ length p * (length p + 2) <= 8 * length h /\
    2 * n <= (length p - 1) * (let X := (2 * width (Z.of_nat B) + 1) * B in X * (X + 1) + 4 * B).
Proof. exact (retrieval_cost_db re_w tk). Qed.
Theorem C109_get_counts : forall HS DS TR (v : @vstate K HS DS TR) t,
  snd (get_n re_w tk HS DS TR v t) = get re_w tk HS DS TR v t.
Proof. exact (get_erase re_w tk). Qed.
End Theorems.

(** * Examples *)
(** a diff of three pieces in seven bytes *)
Example C109_reading_example : Forall is_byte [0; 0; 2; 1; 98; 3; 6]%Z /\
  deserialize_changeset_n [0; 0; 2; 1; 98; 3; 6]%Z = (28, ([PSlice (0, Some 2); PData [98]%Z; PSlice (3, Some 6)], None)) /\
  fst (serialize_changeset_n [PSlice (0, Some 2); PData [98]%Z; PSlice (3, Some 6)]) = 27.
Proof. split; [repeat constructor; unfold is_byte; lia|split; reflexivity]. Qed.
(** Version 1 of [line_history] is retrieved from version 4 over version 3. *)
Example C109_retrieval_example : fresh KNull line_history /\
  (forall t b base, In (t, b, base) line_history -> length b <= 8) /\
  let v := run0 KNull line_history in
  m_path_to (tree v) 1 = Ok (Some [4; 3; 1]) /\ map (change_count v) [3; 1] = [3; 3] /\
  fst (get_n (fun _ => false) KNull (dict_store nat) (dict_store nat) (memory_tree nat) v 1) = 82.
Proof.
  split; [apply line_history_valid; now right|]. split.
  - intros t b base H. cbn in H. repeat (destruct H as [[= <- <- <-]|H]; [cbn; lia|]). destruct H.
  - vm_compute. repeat split; reflexivity.
Qed.

Print Assumptions C109_linear_refuted.
Print Assumptions C109_apply.
Print Assumptions C109_reading_partial.
Print Assumptions C109_writing_partial.
Print Assumptions C109_counts.
Print Assumptions C109_retrieval_partial.
Print Assumptions C109_retrieval_db_partial.
Print Assumptions C109_get_counts.
