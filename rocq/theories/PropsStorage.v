(** C81, C82: what [version_info] counts, and the room a version takes that is stored
    as a diff.  [bytes_inserted] and [pieces_after] are in SpecStorage; versions are
    kept in dicts and a MemoryTree. *)
From Coq Require Import ZArith Lia.
From Verif Require Import Base Changesets Serialize Tokenizers SpecTokenizers Tree TreeProofs
  Versions SpecVersions VersionsInv VersionsProofs VersionsMore SpecStorage StorageProofs StorageRoom PropsVersions.
Local Open Scope nat_scope.

Section Theorems.
Context {K : Type} {E : Teq K} {O : TeqOk K}.
Variable re_w : Z -> bool.
Variable tk : tkind.
Notation D := (dict_store K).
Notation M := (memory_tree K).
Notation after h := (run re_w tk D D M v_empty h).

(** C81: [q] is the version next to [t] on the way to its head.  What is shown by
    [diff] for these two is what is counted, and nearly what is stored: the bytes
    inserted, and at most 19 more for each piece. *)
Theorem C81_version_info : forall h, tk <> KLine -> fresh tk h ->
  forall t b base, In (t, b, base) h -> ~ is_head h t ->
  exists d q bq base' path items st tokens changes,
    dget (diffs (after h)) t = Some d /\
    m_path_to (tree (after h)) t = Ok (Some (path ++ [q; t])) /\ In (q, bq, base') h /\
    diff re_w tk new_tokenizer (CBytes bq) (CBytes b) = (st, Ok items) /\
    version_info D D M (after h) t = Ok (Some (base, tokens, changes)) /\
    tokens = bytes_inserted items /\ changes = pieces_after items /\
    tokens <= length d <= tokens + 19 * changes.
Proof. exact (stored_diff_dict re_w tk). Qed.

(** C82, what holds: a version stored as a diff takes at most twenty times its own
    length.  What is missing: the factor, see [C82_room_refuted]. *)
Theorem C82_room_partial : forall h, tk <> KLine -> fresh tk h ->
  forall t b base, In (t, b, base) h -> ~ is_head h t ->
  exists d, dget (diffs (after h)) t = Some d /\ length d <= 20 * length b.
Proof. exact (room_dict re_w tk). Qed.
(** The factor is smaller as long as the versions are short: a number takes [width n]
    bytes, so it is three if no version is longer than 240 bytes, five up to 2287,
    seven up to 67823, and so on.  [C82_width_example] reaches it. *)
Theorem C82_width_partial : forall n h, tk <> KLine -> fresh tk h ->
  (forall t b base, In (t, b, base) h -> (Z.of_nat (length b) <= n)%Z) ->
  forall t b base, In (t, b, base) h -> ~ is_head h t ->
  exists d, dget (diffs (after h)) t = Some d /\ length d <= (2 * width n + 1) * length b.
Proof. exact (room_short re_w tk). Qed.
End Theorems.

Notation run0 k := (run (fun _ => false) k (dict_store nat) (dict_store nat) (memory_tree nat) v_empty).

(** C82 is false: three bytes are stored for a version of one byte. *)
Theorem C82_room_refuted : exists h t b base d, valid KNull h /\ In (t, b, base) h /\
  dget (diffs (run0 KNull h)) t = Some d /\ length b < length d.
Proof.
  exists [(1, [97]%Z, None); (2, [97; 98]%Z, Some 1)], 1, [97]%Z, None. eexists.
  split; [valid_tac; head_tac|]. split; [now left|]. split; [vm_compute; reflexivity|]. cbn; lia.
Qed.
Print Assumptions C81_version_info.
Print Assumptions C82_room_partial.
Print Assumptions C82_width_partial.
Print Assumptions C82_room_refuted.

(** Version 1 of [line_history] is stored as a diff from version 3: seven bytes for
    six, one of them inserted, in three pieces. *)
Example C81_example : fresh KNull line_history /\ ~ is_head line_history 1 /\
  m_path_to (tree (run0 KNull line_history)) 1 = Ok (Some ([4] ++ [3; 1])) /\
  dget (diffs (run0 KNull line_history)) 1 = Some [0; 0; 2; 1; 98; 3; 6]%Z /\
  (exists items, snd (diff (fun _ => false) KNull new_tokenizer
      (CBytes [97; 10; 121; 10; 99; 10; 100; 10]%Z) (CBytes [97; 10; 98; 10; 99; 10]%Z)) = Ok items /\
    bytes_inserted items = 1 /\ pieces_after items = 3) /\
  version_info (dict_store nat) (dict_store nat) (memory_tree nat) (run0 KNull line_history) 1 = Ok (Some (None, 1, 3)).
Proof.
  split; [apply line_history_valid; now right|]. split.
  - intros (pre & b & base & post & H & N). unfold line_history in H.
    destruct pre as [|? pre]; [injection H as <- <- <-; apply N; cbn; auto|].
    do 3 (destruct pre as [|? pre]; [discriminate|]). injection H as _ _ _ _ H. destruct pre; discriminate.
  - split; [vm_compute; reflexivity|]. split; [vm_compute; reflexivity|].
    split; [eexists; split; [vm_compute; reflexivity|]; split; vm_compute; reflexivity|vm_compute; reflexivity].
Qed.
(** With words as tokens the count is still one of bytes: a blank and the word
    abba are two tokens and counted as five. *)
Example C81_words_example :
  version_info (dict_store nat) (dict_store nat) (memory_tree nat)
    (run (fun c => (97 <=? c)%Z) KSymbol (dict_store nat) (dict_store nat) (memory_tree nat) v_empty
       [(1, [97; 98; 32; 97; 98; 98; 97]%Z, None); (2, [97; 98]%Z, Some 1)]) 1 = Ok (Some (None, 5, 2)).
Proof. vm_compute; reflexivity. Qed.
(** Three bytes for one, and five for one: the end of a text of 300 bytes. *)
Example C82_width_example : width 240 = 1 /\ width 300 = 2 /\
  dget (diffs (run0 KNull [(1, [97]%Z, None); (2, [97; 98]%Z, Some 1)])) 1 = Some [0; 0; 1]%Z /\
  fresh KNull [(1, [98]%Z, None); (2, repeat 97%Z 298 ++ [98; 97]%Z, Some 1)] /\
  ~ is_head [(1, [98]%Z, None); (2, repeat 97%Z 298 ++ [98; 97]%Z, Some 1)] 1 /\
  dget (diffs (run0 KNull [(1, [98]%Z, None); (2, repeat 97%Z 298 ++ [98; 97]%Z, Some 1)])) 1 = Some [0; 241; 58; 241; 59]%Z.
Proof.
  split; [reflexivity|]. split; [reflexivity|]. split; [vm_compute; reflexivity|].
  split; [|split; [|vm_compute; reflexivity]].
  - assert (V : valid KNull [(1, [98]%Z, None); (2, repeat 97%Z 298 ++ [98; 97]%Z, Some 1)]) by (valid_tac; head_tac).
    apply V.
  - intros (pre & b & base & post & H & N).
    destruct pre as [|? pre]; [injection H as <- <- <-; apply N; cbn; auto|].
    destruct pre as [|? pre]; [discriminate|]. injection H as _ _ H. destruct pre; discriminate.
Qed.
