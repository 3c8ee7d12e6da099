(** Theorem C66: the ways of a retrieval and of an add are as short as the square
    root of the number of versions. *)
From Coq Require Import ZArith Lia.
From Verif Require Import Base Changesets Serialize Tokenizers SpecTokenizers Tree SpecTree
  Versions SpecVersions VersionsInv DbTree SpecDb DbVersions VersionsSqrt.
Local Open Scope nat_scope.

Section Theorems.
Context {K : Type} {E : Teq K} {O : TeqOk K}.
Variable re_w : Z -> bool.
Variable tk : tkind.
Notation D := (dict_store K).
Notation C := (db_store K).
Notation M := (memory_tree K).
Notation T := (db_tree K).

(** C66: [length p] diffs are replayed to retrieve [t]; a split on top of the head
    [x] replays [length p - 1] diffs.  [size n] counts the versions in the tree of
    that head only. *)
Theorem C66_sqrt_paths : forall h, tk <> KLine -> fresh tk h ->
  let s := tree (run re_w tk D D M v_empty h) in
  (forall t, added h t -> exists r n p, m_path_to s t = Ok (Some (r :: p)) /\
    dget s r = Some n /\ parent n = None /\ (length p + 1) * (length p + 3) <= 8 * size n /\ size n <= length h) /\
  (forall x, is_head h x -> exists n p, m_get_split s x = Ok (last p x, p) /\
    dget s x = Some n /\ length p * (length p - 1) <= 2 * size n /\ size n <= length h).
Proof. exact (sqrt_memory re_w tk). Qed.
(** the same on a database *)
Theorem C66_sqrt_paths_db : forall place1 place2 h, tk <> KLine -> fresh tk h ->
  let s := tree (run re_w tk (C place1) (C place2) T v_empty h) in
  (forall t, added h t -> exists p, d_path_to s t = Ok (Some p) /\ length p * (length p + 2) <= 8 * length h) /\
  (forall x, is_head h x -> exists p, d_get_split s x = Ok (last p x, p) /\ length p * (length p - 1) <= 2 * length h).
Proof. exact (sqrt_db re_w tk). Qed.
End Theorems.

(** * Examples *)
(** thirty versions, each made from the one before *)
Definition thirty : list (nat * list Z * option nat) :=
  map (fun i => (i, [Z.of_nat i], match i with 0 => None | S j => Some j end)) (seq 0 30).
Definition thirty_tree := tree (run (fun _ => false) KNull (dict_store nat) (dict_store nat) (memory_tree nat) v_empty thirty).
Example C66_example : fresh KNull thirty /\
  fold_right max 0 (map (fun t => match m_path_to thirty_tree t with Ok (Some p) => length p | _ => 0 end) (seq 0 30)) = 10 /\
  m_path_to thirty_tree 0 <> Ok None /\
  (forall d, d * (d + 2) <= 8 * 30 -> d <= 14) /\
  m_get_split thirty_tree 29 = Ok (20, [29; 28; 27; 26; 25; 20]).
Proof.
  split; [|split; [vm_compute; reflexivity|split; [vm_compute; discriminate|split; [intros; nia|vm_compute; reflexivity]]]].
  split.
  - unfold thirty. rewrite map_map. cbn [tag_of fst]. rewrite map_id. apply seq_NoDup.
  - unfold thirty. rewrite Forall_map. apply Forall_forall. intros i Hi. apply in_seq in Hi.
    cbn [base_of tag_of bytes_of fst snd]. split; [destruct i; [discriminate|intros Q; injection Q; lia]|].
    split; [|cbn; lia]. split; [|exact I]. cbn. constructor; [lia|constructor].
Qed.

Print Assumptions C66_sqrt_paths.
Print Assumptions C66_sqrt_paths_db.
