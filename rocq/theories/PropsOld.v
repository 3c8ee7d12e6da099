(** Theorems C115 and C116 (the split DBTree used to compute). *)
From Coq Require Import Lia ZArith.
From Verif Require Import Base Changesets Serialize Tokenizers SpecTokenizers Tree SpecTree TreeProofs TreeExact
  Versions SpecVersions VersionsInv VersionsProofs VersionsMore PropsVersions DbTree DbTreeProofs SpecDb DbVersions
  PropsDb DbTreeOld DbTreeOldProofs.
Local Open Scope nat_scope.

Section Theorems.
Context {K : Type} {E : Teq K} {O : TeqOk K}.
Variable re_w : Z -> bool.
Variable tk : tkind.
Notation D := (dict_store K).
Notation C := (db_store K).
Notation M := (memory_tree K).
Notation T := (db_tree K).

(** C115: under Versions old_get_split gives what get_split gives, for
    every tag, known or not; *)
Theorem C115_versions : forall place1 place2 h, tk <> KLine -> fresh tk h -> forall k,
  let c := tree (run re_w tk (C place1) (C place2) T v_empty h) in
  d_old_get_split c k = d_get_split c k.
Proof. exact (versions_old_same re_w tk). Qed.
(** and for a known tag what MemoryTree gives. *)
Theorem C115_memory : forall place1 place2 h, tk <> KLine -> fresh tk h -> forall k, added h k ->
  d_old_get_split (tree (run re_w tk (C place1) (C place2) T v_empty h)) k =
  m_get_split (tree (run re_w tk D D M v_empty h)) k.
Proof. exact (versions_old_memory re_w tk). Qed.
(** C116, what holds: so it does after all calls for which the two slots of a row do.  What is missing:
    other calls, see [C116_refuted]. *)
Theorem C116_protocol_partial : forall l, always sensible l -> always slots_do l -> forall k,
  d_old_get_split (tree_run T l) k = d_get_split (tree_run T l) k.
Proof. exact protocol_old_same. Qed.
End Theorems.

(** 1 and 2 go below 3, both into its first slot, 2 last; then 4 goes below 1 and
    gives it the larger height, and 5 below 2 brings the height of 3 to 3.
    old_get_split sees 1 and 2, get_split only 2. *)
Definition crowded : list (tree_call nat) :=
  [CallAdd 2 None; CallAdd 1 None; CallAdd 3 None; CallAdd 4 None; CallAdd 5 None;
   CallMove 1 3; CallMove 2 3; CallMove 4 1; CallMove 5 2].
Theorem C116_refuted : exists l k, always (E := Teq_nat) sensible l /\
  d_contains (tree_run (db_tree nat) l) k = true /\
  d_old_get_split (tree_run (db_tree nat) l) k <> d_get_split (tree_run (db_tree nat) l) k.
Proof.
  exists crowded, 3. split.
  - intros pre c post H. unfold crowded in H.
    repeat (destruct pre as [|? pre]; [injection H as <- _; cbn;
      first [reflexivity | split; [discriminate|eexists; split; [eapply up_root; reflexivity|cbn; intuition discriminate]]
            | split; [discriminate|eexists; split;
                [eapply up_step; [reflexivity|reflexivity|eapply up_root; reflexivity]|cbn; intuition discriminate]]]
      |injection H as <- H]).
    destruct pre; discriminate.
  - vm_compute. split; [reflexivity|discriminate].
Qed.

(** * Examples *)
Example C115_example :
  let d := tree (run (fun _ => false) KNull (db_store nat pl) (db_store nat pl) (db_tree nat) v_empty line_history) in
  fresh KNull line_history /\
  map (d_old_get_split d) [1; 2; 3; 4; 9] = [Ok (1, [1]); Ok (2, [2]); Ok (1, [3; 1]); Ok (3, [4; 3]); Err TypeError].
Proof. cbn zeta. split; [apply line_history_valid; now right|vm_compute; reflexivity]. Qed.
Example C116_protocol_example : always (E := Teq_nat) sensible good_calls /\ always (E := Teq_nat) slots_do good_calls /\
  d_old_get_split (tree_run (db_tree nat) good_calls) 3 = Ok (2, [3; 2]).
Proof. split; [apply C41_example|]. split; [apply C41_example|vm_compute; reflexivity]. Qed.
Example C116_crowded_example :
  d_old_get_split (tree_run (db_tree nat) crowded) 3 = Ok (1, [3; 1]) /\
  d_get_split (tree_run (db_tree nat) crowded) 3 = Ok (2, [3; 2]).
Proof. vm_compute; auto. Qed.

Print Assumptions C115_versions.
Print Assumptions C115_memory.
Print Assumptions C116_protocol_partial.
Print Assumptions C116_refuted.
