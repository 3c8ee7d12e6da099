(** Theorems C111 and C112: versions are stored as diffs from later versions of their
    own line, and what that takes if the line only grows. *)
From Coq Require Import ZArith Lia.
From Verif Require Import Base Changesets Serialize Tokenizers SpecTokenizers Tree TreeProofs Versions SpecVersions
  SpecLineage SpecStorage VersionsInv VersionsProofs VersionsMore DbTree SpecDb DbVersions VersionsLineage VersionsGrow VersionsWords PropsVersions PropsFrame.
Local Open Scope nat_scope.

Section Theorems.
Context {K : Type} {E : Teq K} {O : TeqOk K}.
Variable re_w : Z -> bool.
Variable tk : tkind.
Notation D := (dict_store K).
Notation C := (db_store K).
Notation M := (memory_tree K).
Notation T := (db_tree K).

(** C111: on the way from a head to the version [t] each version is made from the next
    one, in one or more steps. *)
Theorem C111_way : forall h, tk <> KLine -> fresh tk h ->
  forall t p, added h t -> m_path_to (tree (run re_w tk D D M v_empty h)) t = Ok (Some p) ->
  (forall l1 u w l2, p = l1 ++ u :: w :: l2 -> later h w u) /\
  (exists r l, p = r :: l /\ is_head h r /\ (r = t \/ later h t r)).
Proof. exact (way_memory re_w tk). Qed.
(** The versions made from [t] are a line without branches, and it has one head. *)
Theorem C111_line : forall h (t1 t2 t3 : K), NoDup (map tag_of h) -> built_on h t1 t2 -> built_on h t1 t3 -> t2 = t3.
Proof. exact one_line. Qed.
Theorem C111_one_head : forall h (t r : K), NoDup (map tag_of h) -> later h t r -> is_head h r ->
  forall r', later h t r' -> is_head h r' -> r = r'.
Proof. exact one_head. Qed.
(** on a database *)
Theorem C111_way_db : forall place1 place2 h, tk <> KLine -> fresh tk h ->
  forall t p, added h t -> d_path_to (tree (run re_w tk (C place1) (C place2) T v_empty h)) t = Ok (Some p) ->
  (forall l1 u w l2, p = l1 ++ u :: w :: l2 -> later h w u) /\
  (exists r l, p = r :: l /\ is_head h r /\ (r = t \/ later h t r)).
Proof. exact (way_db re_w tk). Qed.

(** C112, what holds, without a tokenizer or with characters as tokens: an old version of
    a text that only grows takes three numbers, however long it is.  What is missing: words
    as tokens, see [C112_words_refuted]. *)
Theorem C112_growing_partial : forall n h, tk = KNull \/ tk = KChar -> fresh tk h -> growing h ->
  (forall t b base, In (t, b, base) h -> (Z.of_nat (length b) <= n)%Z) ->
  forall t b base, In (t, b, base) h -> ~ is_head h t ->
  exists d, dget (diffs (run re_w tk D D M v_empty h)) t = Some d /\ length d <= 1 + 2 * width n.
Proof. exact (grow_memory re_w tk). Qed.
(** If it grows at the end only, two of the numbers are zero. *)
Theorem C112_appending_partial : forall h, tk = KNull \/ tk = KChar -> fresh tk h -> appending h ->
  forall t b base, In (t, b, base) h -> ~ is_head h t ->
  exists d, dget (diffs (run re_w tk D D M v_empty h)) t = Some d /\ length d <= 2 + width (Z.of_nat (length b)).
Proof. exact (append_memory re_w tk). Qed.
Theorem C112_growing_db_partial : forall place1 place2 n h, tk = KNull \/ tk = KChar -> fresh tk h -> growing h ->
  (forall t b base, In (t, b, base) h -> (Z.of_nat (length b) <= n)%Z) ->
  forall t b base, In (t, b, base) h -> ~ is_head h t ->
  exists d, s_get (C place2) (diffs (run re_w tk (C place1) (C place2) T v_empty h)) t = Ok d /\ length d <= 1 + 2 * width n.
Proof. exact (grow_db re_w tk). Qed.
Theorem C112_appending_db_partial : forall place1 place2 h, tk = KNull \/ tk = KChar -> fresh tk h -> appending h ->
  forall t b base, In (t, b, base) h -> ~ is_head h t ->
  exists d, s_get (C place2) (diffs (run re_w tk (C place1) (C place2) T v_empty h)) t = Ok d /\
    length d <= 2 + width (Z.of_nat (length b)).
Proof. exact (append_db re_w tk). Qed.
End Theorems.

(** With words as tokens this holds of a text to which whole words are added. *)
Section WordTheorems.
Context {K : Type} {E : Teq K} {O : TeqOk K}.
Variable re_w : Z -> bool.
Theorem C112_growing_words_partial : forall n (h : list (adding K)), fresh KSymbol h -> growing_by_words re_w h ->
  (forall t b base, In (t, b, base) h -> (Z.of_nat (length b) <= n)%Z) ->
  forall t b base, In (t, b, base) h -> ~ is_head h t ->
  exists d, dget (diffs (run re_w KSymbol (dict_store K) (dict_store K) (memory_tree K) v_empty h)) t = Some d /\
    length d <= 1 + 2 * width n.
Proof. exact (grow_words_memory re_w). Qed.
Theorem C112_appending_words_partial : forall (h : list (adding K)), fresh KSymbol h -> appending_words re_w h ->
  forall t b base, In (t, b, base) h -> ~ is_head h t ->
  exists d, dget (diffs (run re_w KSymbol (dict_store K) (dict_store K) (memory_tree K) v_empty h)) t = Some d /\
    length d <= 2 + width (Z.of_nat (length b)).
Proof. exact (append_words_memory re_w). Qed.
Theorem C112_growing_words_db_partial : forall place1 place2 n (h : list (adding K)), fresh KSymbol h -> growing_by_words re_w h ->
  (forall t b base, In (t, b, base) h -> (Z.of_nat (length b) <= n)%Z) ->
  forall t b base, In (t, b, base) h -> ~ is_head h t ->
  exists d, s_get (db_store K place2) (diffs (run re_w KSymbol (db_store K place1) (db_store K place2) (db_tree K) v_empty h)) t = Ok d /\
    length d <= 1 + 2 * width n.
Proof. exact (grow_words_db re_w). Qed.
Theorem C112_appending_words_db_partial : forall place1 place2 (h : list (adding K)), fresh KSymbol h -> appending_words re_w h ->
  forall t b base, In (t, b, base) h -> ~ is_head h t ->
  exists d, s_get (db_store K place2) (diffs (run re_w KSymbol (db_store K place1) (db_store K place2) (db_tree K) v_empty h)) t = Ok d /\
    length d <= 2 + width (Z.of_nat (length b)).
Proof. exact (append_words_db re_w). Qed.
End WordTheorems.

(** C112 is false with words as tokens: the last word grows, so it is another word, and
    the old one is stored. *)
Definition long_word := repeat 97%Z 20.
Theorem C112_words_refuted : exists h t b base d, fresh KSymbol h /\ appending h /\ In (t, b, base) h /\ ~ is_head h t /\
  dget (diffs (run (fun c => (97 <=? c)%Z) KSymbol (dict_store nat) (dict_store nat) (memory_tree nat) v_empty h)) t = Some d /\
  2 + width (Z.of_nat (length b)) < length d.
Proof.
  exists [(1, long_word, None); (2, long_word ++ [97]%Z, Some 1)], 1, long_word, None. eexists.
  split; [|split; [|split; [now left|split; [|split; [vm_compute; reflexivity|vm_compute; lia]]]]].
  - split; [repeat constructor; cbn; intuition discriminate|].
    assert (U : forall n, is_utf8 (repeat 97%Z n)).
    { intros n. exists (repeat 97%Z n). split; [apply Forall_forall; intros x Hx; apply repeat_spec in Hx; subst; unfold scalar_value; lia|].
      induction n; [reflexivity|]. cbn [repeat flat_map]. now rewrite <- IHn. }
    repeat (constructor; [split; [discriminate|]; split; [split; [|]|reflexivity]|]); try constructor.
    all: first [exact (U 20)|exact (U 21)|repeat (constructor; [lia|]); constructor].
  - intros t1 b1 base1 t2 b2 base2 H H1 H2. apply built_on_In in H as [_ [b H]].
    destruct H as [H|[H|[]]]; [discriminate|]. injection H as <- <- <-.
    destruct H1 as [H1|[H1|[]]]; [|discriminate]. destruct H2 as [H2|[H2|[]]]; [discriminate|].
    injection H1 as <- <-. injection H2 as <- <-. now exists [97%Z].
  - intros (pre & b & base & post & H & N).
    destruct pre as [|? pre]; [injection H as <- <- <-; apply N; cbn; auto|].
    destruct pre as [|? pre]; [discriminate|]. injection H as _ _ H. destruct pre; discriminate.
Qed.
Print Assumptions C111_way.
Print Assumptions C111_line.
Print Assumptions C111_one_head.
Print Assumptions C111_way_db.
Print Assumptions C112_growing_partial.
Print Assumptions C112_appending_partial.
Print Assumptions C112_growing_db_partial.
Print Assumptions C112_appending_db_partial.
Print Assumptions C112_growing_words_partial.
Print Assumptions C112_appending_words_partial.
Print Assumptions C112_growing_words_db_partial.
Print Assumptions C112_appending_words_db_partial.
Print Assumptions C112_words_refuted.

(** * Examples *)
(** the way 5, 3, 1 of [two_branches] and a fifth version: 5 is made from 4 and 4 from 3 *)
Example C111_example : let h := two_branches ++ [(5, [97]%Z, Some 4)] in
  fresh KNull h /\ added h 1 /\ m_path_to (tree (run0 KNull h)) 1 = Ok (Some [5; 3; 1]) /\
  later h 3 5 /\ ~ built_on h 3 5 /\ built_on h 3 4 /\ built_on h 4 5.
Proof.
  destruct C86_example as [F [H4 _]]. cbv zeta.
  assert (B45 : built_on (two_branches ++ [(5, [97]%Z, Some 4)]) 4 5) by (now apply built_on_last).
  assert (B34 : built_on (two_branches ++ [(5, [97]%Z, Some 4)]) 3 4).
  { apply built_on_snoc. exists [(1, [97; 10; 98; 10; 99; 10]%Z, None); (2, [97; 10; 120; 10; 99; 10]%Z, Some 1);
      (3, [97; 10; 121; 10; 99; 10; 100; 10]%Z, Some 2)], [97; 10; 122; 10; 99; 10; 100; 10]%Z, [(9, [120]%Z, None)].
    split; [reflexivity|]. apply (head_last [_; _] 3). }
  split; [exact F|]. split; [now left|]. split; [vm_compute; reflexivity|].
  split; [apply later_more with 4; [exact B34|now apply later_one]|]. split; [|auto].
  intros H. pose proof (C111_line _ _ _ _ (proj1 F) B34 H). discriminate.
Qed.
(** A text that grows at its end, then in front.  Versions 1 and 2, of 300 bytes
    and more, take four bytes each. *)
Definition log0 := repeat 97%Z 300.
Definition log_history : list (adding nat) :=
  [(1, log0, None); (2, log0 ++ [98; 99]%Z, Some 1); (3, [100]%Z ++ log0 ++ [98; 99]%Z, Some 2)].
Example C112_example : fresh KNull log_history /\ growing log_history /\ ~ is_head log_history 1 /\
  dget (diffs (run0 KNull log_history)) 1 = Some [0; 1; 241; 61]%Z /\
  dget (diffs (run0 KNull log_history)) 2 = Some [0; 1; 241; 63]%Z /\
  appending (firstn 2 log_history) /\
  dget (diffs (run0 KNull (firstn 2 log_history))) 1 = Some [0; 0; 241; 60]%Z /\ width (Z.of_nat (length log0)) = 2.
Proof.
  assert (B : forall h t1 t2, (h = log_history \/ h = firstn 2 log_history) -> built_on h t1 t2 -> (t1 = 1 /\ t2 = 2) \/ (t1 = 2 /\ t2 = 3)).
  { intros h t1 t2 [->| ->] H; apply built_on_In in H as [_ [b H]]; cbn [log_history firstn In] in H;
      repeat (destruct H as [H|H]); try contradiction; try discriminate; injection H as <- _ <-; auto. }
  split; [|split; [|split; [|split; [vm_compute; reflexivity|split; [vm_compute; reflexivity|split; [|split; vm_compute; reflexivity]]]]]].
  - assert (V : valid KNull log_history) by (unfold log_history; valid_tac; head_tac). apply V.
  - intros t1 b1 base1 t2 b2 base2 H H1 H2. apply B in H; [|now left].
    cbn [log_history In] in H1, H2.
    destruct H as [[-> ->]|[-> ->]]; repeat (destruct H1 as [H1|H1]); try contradiction; try discriminate;
      repeat (destruct H2 as [H2|H2]); try contradiction; try discriminate; injection H1 as <- _; injection H2 as <- _.
    + exists [], [98; 99]%Z. reflexivity.
    + exists [100]%Z, []. now rewrite app_nil_r.
  - intros (pre & b & base & post & H & N). unfold log_history in H.
    destruct pre as [|? pre]; [injection H as <- <- <-; apply N; cbn; auto|].
    do 2 (destruct pre as [|? pre]; [discriminate|]). injection H as _ _ _ H. destruct pre; discriminate.
  - intros t1 b1 base1 t2 b2 base2 H H1 H2. apply B in H; [|now right].
    cbn [log_history firstn In] in H1, H2.
    destruct H as [[-> ->]|[-> ->]]; repeat (destruct H1 as [H1|H1]); try contradiction; try discriminate;
      repeat (destruct H2 as [H2|H2]); try contradiction; try discriminate; injection H1 as <- _; injection H2 as <- _.
    now exists [98; 99]%Z.
Qed.
(** the lines "aa" and "aa b": the first version, one line, takes three bytes *)
Definition letters (c : Z) : bool := (97 <=? c)%Z.
Definition word_history : list (adding nat) := [(1, [97; 97; 10]%Z, None); (2, [97; 97; 10; 97; 97; 32; 98; 10]%Z, Some 1)].
Example C112_words_example : fresh KSymbol word_history /\ appending_words letters word_history /\
  growing_by_words letters word_history /\ ~ is_head word_history 1 /\
  dget (diffs (run letters KSymbol (dict_store nat) (dict_store nat) (memory_tree nat) v_empty word_history)) 1 = Some [0; 0; 2]%Z.
Proof.
  assert (A : appending_words letters word_history).
  { intros t1 b1 base1 t2 b2 base2 H H1 H2. apply built_on_In in H as [_ [b H]].
    destruct H as [H|[H|[]]]; [discriminate|]. injection H as <- <- <-.
    destruct H1 as [H1|[H1|[]]]; [|discriminate]. destruct H2 as [H2|[H2|[]]]; [discriminate|].
    injection H1 as <- <-. injection H2 as <- <-. exists [97; 97; 10]%Z, [97; 97; 32; 98; 10]%Z.
    split; [repeat (constructor; [unfold scalar_value; lia|]); constructor|]. split; [reflexivity|]. split; [reflexivity|].
    intros a' x y b' Ha Hb W _. change [97; 97; 10]%Z with ([97; 97] ++ [10])%Z in Ha. apply app_inj_tail in Ha as [_ <-].
    destruct W as [W|[W|W]]; discriminate. }
  split; [|split; [exact A|split; [|split; [|vm_compute; reflexivity]]]].
  - split; [repeat constructor; cbn; intuition discriminate|].
    repeat (constructor; [split; [discriminate|]; split; [split|reflexivity]|]); try constructor.
    all: first [exists [97; 97; 10]%Z; split; [|reflexivity]|exists [97; 97; 10; 97; 97; 32; 98; 10]%Z; split; [|reflexivity]|idtac].
    all: repeat (constructor; [unfold scalar_value; lia|]); constructor.
  - intros t1 b1 base1 t2 b2 base2 H H1 H2. destruct (A _ _ _ _ _ _ H H1 H2) as (s & q & F & -> & -> & N).
    exists [], s, q. split; [exact F|]. split; [reflexivity|]. split; [reflexivity|]. split; [|exact N].
    intros [|? ?] ? ? ? X; discriminate X.
  - intros (pre & b & base & post & H & N). unfold word_history in H.
    destruct pre as [|? pre]; [injection H as <- <- <-; apply N; cbn; auto|].
    destruct pre as [|? pre]; [discriminate|]. injection H as _ _ H. destruct pre; discriminate.
Qed.
