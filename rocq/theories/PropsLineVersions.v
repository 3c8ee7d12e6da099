(** C36 for the line tokenizer on branches of any length.  [C36_line_refuted] in
    PropsVersions.v shows that some histories are not kept; here are three kinds that are. *)
From Coq Require Import ZArith Lia.
From Verif Require Import Base Changesets Tokenizers SpecTokenizers Tree TreeProofs Versions SpecVersions SpecTokens
  VersionsInv VersionsProofs VersionsMore SpecLineVersions VersionsLine PropsVersions.
Local Open Scope nat_scope.

Section Theorems.
Context {K : Type} {E : Teq K} {O : TeqOk K}.
Variable re_w : Z -> bool.
Notation D := (dict_store K).
Notation M := (memory_tree K).
Notation after h := (run re_w KLine D D M v_empty h).
Notation get := (Versions.get re_w KLine D D M).
Notation add_result := (add_result re_w KLine D D M).

(** What is missing in all of these: histories in which going back means to insert a
    piece that ends with a newline. *)
Theorem C36_line_quiet_partial : forall h : list (adding K), fresh KLine h -> quiet_history re_w h ->
  (forall t b base, In (t, b, base) h -> get (after h) t = Ok (Some b)) /\
  (forall t, ~ added h t -> get (after h) t = Ok None).
Proof. exact (retrieval_quiet re_w D D M dict_law dict_law memory_law). Qed.
Theorem C36_line_quiet_adds_partial : forall (h : list (adding K)) a, valid KLine (h ++ [a]) -> quiet_history re_w h ->
  add_result (after h) a = Ok tt.
Proof. exact (quiet_adds re_w D D M dict_law dict_law memory_law). Qed.

(** files to which something is only ever appended, or whole lines put in front *)
Theorem C36_line_surround_partial : forall h : list (adding K), fresh KLine h -> surrounding_history h ->
  (forall t b base, In (t, b, base) h -> get (after h) t = Ok (Some b)) /\
  (forall t, ~ added h t -> get (after h) t = Ok None).
Proof.
  exact (fun h F S => retrieval_quiet re_w D D M dict_law dict_law memory_law h F (surrounding_quiet re_w h F S)).
Qed.
(** files of different lines, to which lines are only ever added *)
Theorem C36_line_insert_partial : forall h : list (adding K), fresh KLine h -> inserting_history re_w h ->
  (forall t b base, In (t, b, base) h -> get (after h) t = Ok (Some b)) /\
  (forall t, ~ added h t -> get (after h) t = Ok None).
Proof.
  exact (fun h F S => retrieval_quiet re_w D D M dict_law dict_law memory_law h F (inserting_quiet re_w h F S)).
Qed.
End Theorems.

(** ** Examples: branches of five versions *)
Ltac in_tac := cbn [In] in *;
  repeat match goal with H : _ \/ _ |- _ => destruct H | H : False |- _ => destruct H end;
  repeat match goal with H : (_, _, _) = (_, _, _) |- _ => injection H; clear H; intros; subst end; try congruence.

Ltac part_tac := first [apply part_nil | apply part_keep; part_tac | apply part_skip; part_tac].

(** "a", "a\nb", "z\na\nb\n", "z\na\nb\nb\nc", "y\nz\na\nb\nb\nc\n" *)
Definition log_history : list (adding nat) :=
  [(1, [97]%Z, None); (2, [97; 10; 98]%Z, Some 1); (3, [122; 10; 97; 10; 98; 10]%Z, Some 2);
   (4, [122; 10; 97; 10; 98; 10; 98; 10; 99]%Z, Some 3);
   (5, [121; 10; 122; 10; 97; 10; 98; 10; 98; 10; 99; 10]%Z, Some 4)].
Lemma log_history_valid : valid KLine log_history.
Proof.
  unfold log_history; valid_tac; head_tac.
Qed.
Example C36_surround_example : fresh KLine log_history /\ surrounding_history log_history /\ ~ short log_history /\
  map (get0 KLine (run0 KLine log_history)) [1; 2; 3; 4; 5] = map (fun a => Ok (Some (bytes_of a))) log_history.
Proof.
  split; [apply log_history_valid|]. split; [|split; [|vm_compute; reflexivity]].
  - intros t b x bx basex H1 H2. unfold log_history in *. in_tac.
    + exists [], [10; 98]%Z. auto.
    + exists [122; 10]%Z, [10]%Z. split; [reflexivity|]. right. now exists [122%Z].
    + exists [], [98; 10; 99]%Z. auto.
    + exists [121; 10]%Z, [10]%Z. split; [reflexivity|]. right. now exists [121%Z].
  - intros H. apply H. do 7 eexists. unfold log_history; cbn. split; [right; left; reflexivity|].
    split; [right; right; left; reflexivity|right; right; right; left; reflexivity].
Qed.

(** one line without newline that is changed again and again *)
Definition word_history : list (adding nat) :=
  [(1, [97]%Z, None); (2, [98]%Z, Some 1); (3, [99]%Z, Some 2); (4, [97]%Z, Some 3); (5, [100]%Z, Some 4)].
Example C36_quiet_example : fresh KLine word_history /\ quiet_history (fun _ => false) word_history /\
  map (get0 KLine (run0 KLine word_history)) [1; 2; 3; 4; 5] = map (fun a => Ok (Some (bytes_of a))) word_history.
Proof.
  split; [|split; [|vm_compute; reflexivity]].
  - assert (V : valid KLine word_history) by (unfold word_history; valid_tac; head_tac). apply V.
  - intros t b base x bx basex H1 H2 _. unfold word_history in *.
    in_tac; intros st d HD a b' Hin; vm_compute in HD; injection HD as _ <-;
      cbn [In] in Hin; repeat (destruct Hin as [Hin|Hin]; [first [discriminate | injection Hin as <- <-]|]); try destruct Hin;
      intros [y Hy]; cbn in Hy; repeat (destruct y as [|? y]; cbn in Hy; try discriminate).
Qed.

(** lines are put between others: a c, a b c, a b c d, z a b c d *)
Definition list_history : list (adding nat) :=
  [(1, [97; 10; 99; 10]%Z, None); (2, [97; 10; 98; 10; 99; 10]%Z, Some 1);
   (3, [97; 10; 98; 10; 99; 10; 100; 10]%Z, Some 2); (4, [122; 10; 97; 10; 98; 10; 99; 10; 100; 10]%Z, Some 3);
   (5, [122; 10; 97; 10; 120; 10; 98; 10; 99; 10; 100; 10]%Z, Some 4)].
Example C36_insert_example : fresh KLine list_history /\ inserting_history (fun _ => false) list_history /\
  map (get0 KLine (run0 KLine list_history)) [1; 2; 3; 4; 5] = map (fun a => Ok (Some (bytes_of a))) list_history.
Proof.
  split; [|split; [|vm_compute; reflexivity]].
  - assert (V : valid KLine list_history) by (unfold list_history; valid_tac; head_tac). apply V.
  - assert (U : forall b ls, units (fun _ => false) KLine (CBytes b) ls -> ls = lines_of b).
    { intros b ls [C U]. cbn in C. subst b. symmetry. now apply TokensProofs.lines_unique. }
    split.
    + intros t b base ls H1 H2. apply U in H2; subst ls. unfold list_history in *.
      in_tac; vm_compute; repeat (constructor; [cbn; intuition discriminate|]); constructor.
    + intros t b x bx basex ls lsx H1 H2 U1 U2. apply U in U1, U2; subst ls lsx. unfold list_history in *.
      in_tac; vm_compute; part_tac.
Qed.

Print Assumptions C36_line_quiet_partial.
Print Assumptions C36_line_quiet_adds_partial.
Print Assumptions C36_line_surround_partial.
Print Assumptions C36_line_insert_partial.
