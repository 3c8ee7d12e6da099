(** Property C79: the trees do as they are told. *)
From Coq Require Import Lia.
From Verif Require Import Base Tree Versions DbTree SpecDb SpecForest ForestProofs.

(** ** C79  A tree keeps what it was told, and a call that raises changes nothing *)
(** DBTree: for all calls, unless a tag is moved below itself.  (C41 is about heights and
    splits, which are right for fewer calls.) *)
Theorem C79_db_partial : forall {K} {E : Teq K} {O : TeqOk K}, does_as_told (db_tree K) (fun _ _ => True).
Proof. exact @db_as_told. Qed.
(** MemoryTree: for calls that add new tags and move tags to known ones. *)
Theorem C79_memory_partial : forall {K} {E : Teq K} {O : TeqOk K}, does_as_told (memory_tree K) plain.
Proof. exact @memory_as_told. Qed.
(** Moving a tag below itself does not raise, it never returns: the loop that updates the
    metrics goes round the circle (the model gives up after as many rounds as there are
    tags; the lemmas show this for every number of rounds). *)
Theorem C79_db_cycle_refuted : forall {K} {E : Teq K} {O : TeqOk K} l,
  (forall pre c post, l = pre ++ c :: post -> sound (told_all pre) c) ->
  forall k q up, ancestors (told_all l) q up -> In k up ->
  snd (tree_result (db_tree K) (tree_run (db_tree K) l) (CallMove k q)) = Err OutOfFuel.
Proof. exact @db_never_ends. Qed.
Theorem C79_memory_cycle_refuted : forall {K} {E : Teq K} {O : TeqOk K} l,
  (forall pre c post, l = pre ++ c :: post -> sound (told_all pre) c /\ plain (told_all pre) c) ->
  forall k q up, ancestors (told_all l) q up -> In k up ->
  snd (tree_result (memory_tree K) (tree_run (memory_tree K) l) (CallMove k q)) = Err OutOfFuel.
Proof. exact @memory_never_ends. Qed.
(** MemoryTree, other calls: 1 is below 2 and is moved to 9, which is not there.  The call
    raises, and the path to 1 is lost. *)
Theorem C79_memory_refuted : exists l : list (tree_call nat),
  (forall pre c post, l = pre ++ c :: post -> sound (told_all pre) c /\ plain (told_all pre) c) /\
  sound (told_all l) (CallMove 1 9) /\
  m_path_to (tree_run (memory_tree nat) l) 1 = Ok (Some [2; 1]) /\
  snd (m_change_parent 1 (Some 9) (tree_run (memory_tree nat) l)) = Err KeyError /\
  m_path_to (fst (m_change_parent 1 (Some 9) (tree_run (memory_tree nat) l))) 1 = Ok None.
Proof.
  exists [CallAdd 1 None; CallAdd 2 (Some 1); CallMove 1 2]. split; [|split; [|vm_compute; auto]].
  - intros pre c post H.
    destruct pre as [|? [|? [|? [|? ?]]]]; inversion H; subst; cbn; (split; [try exact I|try reflexivity]); try discriminate.
    intros _ l A. inversion A as [? ? D|? ? ? ? D]; subst; vm_compute in D; [|discriminate]. intros [X|[]]; discriminate.
  - intros _ l A. inversion A as [? ? D|? ? ? ? D]; subst; vm_compute in D; discriminate.
Qed.

Print Assumptions C79_db_partial.
Print Assumptions C79_memory_partial.
Print Assumptions C79_db_cycle_refuted.
Print Assumptions C79_memory_cycle_refuted.
Print Assumptions C79_memory_refuted.

(** three children of 3, which are too many for the two slots (C41), and calls that raise *)
Definition told_calls : list (tree_call nat) :=
  [CallAdd 1 None; CallAdd 2 None; CallAdd 3 (Some 2); CallAdd 4 None; CallMove 1 3; CallMove 2 3; CallMove 4 3;
   CallAdd 4 (Some 1); CallMove 4 9; CallMove 9 4].
Example C79_example_sound : forall pre c post, told_calls = pre ++ c :: post -> sound (told_all pre) c.
Proof.
  assert (R : forall f k (q : nat) b, dget f q = Some (None, b) -> k <> q -> forall l, ancestors f q l -> ~ In k l).
  { intros f k q b D N l A. inversion A as [? ? D'|? ? ? ? D']; subst; [|congruence]. intros [X|[]]. now apply N. }
  intros pre c post H.
  do 10 (destruct pre as [|? pre]; [inversion H; subst; cbn;
    first [exact I|intros _; eapply R; [reflexivity|discriminate]|intros X; now contradiction X
          |intros _ l A; inversion A as [? ? D|? ? ? ? D]; vm_compute in D; discriminate]
    |injection H as <- H]).
  destruct pre; discriminate.
Qed.
Example C79_example : told_all told_calls = [(1, (Some 3, None)); (2, (Some 3, None)); (3, (None, Some 2)); (4, (Some 3, None))] /\
  map (d_path_to (tree_run (db_tree nat) told_calls)) [1; 2; 3; 4] = map (fun p => Ok (Some p)) [[3; 1]; [3; 2]; [3]; [3; 4]] /\
  map (fun n => snd (tree_result (db_tree nat) (tree_run (db_tree nat) (firstn n told_calls)) (nth n told_calls (CallAdd 0 None)))) [7; 8; 9] =
    [Err IntegrityError; Err TypeError; Err TypeError].
Proof. vm_compute. auto. Qed.
(** 3 is moved below 1, which is below 3 *)
Example C79_example_cycle : ancestors (told_all told_calls) 1 [1; 3].
Proof. apply anc_step with 3 None; [reflexivity|]. apply anc_root with (Some 2). reflexivity. Qed.
Example C79_example_cycle_memory : snd (m_change_parent 2 (Some 1) (tree_run (memory_tree nat) [CallAdd 1 None; CallAdd 2 None; CallMove 1 2])) = Err OutOfFuel.
Proof. vm_compute. reflexivity. Qed.
