(** Theorems C09-C15 (changesets, patches and diffs). *)
From Verif Require Import Base SpecDiff Changesets ChangesetsProofs DiffLaws DiffProofs.

Section Statements.
Context {T : Type} {E : Teq T} {O : TeqOk T}.

(** C09: the forward patch turns the original into the modified sequence,
    through the streaming and through the old API. *)
Theorem C09_forward_patch : forall o m : list T, exists c,
  find_changeset o m = Ok c /\
  apply_forward (as_change_stream c) o = m /\
  apply (strip_forward (as_change_stream c)) o = m /\
  old_apply_forward c o = m.
Proof. exact forward_patch. Qed.

(** C10: and the reverse patch turns it back. *)
Theorem C10_reverse_patch : forall o m : list T, exists c,
  find_changeset o m = Ok c /\
  apply_reverse (as_change_stream c) m = o /\
  apply (strip_reverse (as_change_stream c)) m = o /\
  old_apply_reverse c m = o.
Proof. exact reverse_patch. Qed.

(** C11: a diff accounts for both sequences. *)
Theorem C11_diff_accounts : forall o m : list T, exists d,
  diff_token_sequences o m = Ok d /\ diff_before d = o /\ diff_after d = m.
Proof. exact diff_accounts. Qed.

(** C12: and is in normal form. *)
Theorem C12_diff_normal_form : forall o m : list T, exists d,
  diff_token_sequences o m = Ok d /\ normal_diff d.
Proof. exact diff_normal. Qed.

(** C13: trivial diffs. *)
Theorem C13_diff_self : forall x : list T,
  diff_token_sequences x x = Ok (match x with [] => [] | _ => [DText x] end).
Proof. exact diff_self. Qed.
Theorem C13_diff_disjoint : forall o m : list T,
  (forall x, In x o -> In x m -> False) ->
  diff_token_sequences o m = Ok (match o, m with [], [] => [] | _, _ => [DChange m o] end).
Proof. exact diff_disjoint. Qed.
End Statements.

(** C14: renaming tokens injectively renames the diff and changes nothing else. *)
Theorem C14_diff_renaming : forall {A B} {EA : Teq A} {OA : TeqOk A} {EB : Teq B} {OB : TeqOk B}
  (f : A -> B), (forall x y, f x = f y -> x = y) -> forall (o m : list A) d,
  diff_token_sequences o m = Ok d ->
  diff_token_sequences (map f o) (map f m) = Ok (map (ditem_map f) d).
Proof. exact (fun A B EA OA EB OB f Hf o m d => @diff_map A B EA OA EB OB f Hf o m d). Qed.

(** C15 is false: no recursion limit is large enough for all inputs. *)
Theorem C15_bounded_recursion_refuted : forall limit, exists o m : list nat,
  find_changeset_lim limit o m (0, None) (0, None) = Err RecursionError.
Proof. exact depth_unbounded. Qed.
(** What does hold: a limit above the length of the shorter sequence is enough,
    and then the answer is a correct diff. *)
Theorem C15_recursion_partial : forall {T} {E : Teq T} {O : TeqOk T} (o m : list T) limit,
  Nat.min (length o) (length m) < limit ->
  exists c, find_changeset_lim limit o m (0, None) (0, None) = Ok c /\
            diff_before (as_diff_stream o c) = o /\ diff_after (as_diff_stream o c) = m.
Proof. exact @depth_enough. Qed.

Print Assumptions C09_forward_patch.
Print Assumptions C10_reverse_patch.
Print Assumptions C11_diff_accounts.
Print Assumptions C12_diff_normal_form.
Print Assumptions C13_diff_self.
Print Assumptions C13_diff_disjoint.
Print Assumptions C14_diff_renaming.
Print Assumptions C15_bounded_recursion_refuted.
Print Assumptions C15_recursion_partial.

(** Concrete cases. *)
Example C09_example :
  match find_changeset [1;2;3;4;5] [1;9;3;4;8] with
  | Ok c => (strip_forward (as_change_stream c), apply_forward (as_change_stream c) [1;2;3;4;5])
  | Err _ => ([], []) end
  = ([PSlice (0, Some 1); PData [9]; PSlice (2, Some 4); PData [8]], [1;9;3;4;8]).
Proof. vm_compute; reflexivity. Qed.
Example C10_example :
  match find_changeset [1;2;3;4;5] [1;9;3;4;8] with
  | Ok c => (strip_reverse (as_change_stream c), apply_reverse (as_change_stream c) [1;9;3;4;8])
  | Err _ => ([], []) end
  = ([PSlice (0, Some 1); PData [2]; PSlice (2, Some 4); PData [5]], [1;2;3;4;5]).
Proof. vm_compute; reflexivity. Qed.
Example C11_example : diff_token_sequences [1;2;3;4;5] [1;9;3;4;8]
  = Ok [DText [1]; DChange [9] [2]; DText [3;4]; DChange [8] [5]].
Proof. vm_compute; reflexivity. Qed.
Example C13_example : diff_token_sequences [1;2] [3] = Ok [DChange [3] [1;2]].
Proof. vm_compute; reflexivity. Qed.
Example C14_example : diff_token_sequences (map (fun x => x + 10) [1;2;3]) (map (fun x => x + 10) [1;3])
  = Ok (map (ditem_map (fun x => x + 10)) [DText [1]; DChange [] [2]; DText [3]]).
Proof. vm_compute; reflexivity. Qed.
Example C15_example : find_changeset_lim 3 (comb 1 0 3) (comb 2 0 3) (0, None) (0, None) = Err RecursionError
  /\ exists c, find_changeset_lim 4 (comb 1 0 3) (comb 2 0 3) (0, None) (0, None) = Ok c.
Proof. split; [vm_compute; reflexivity|]; eexists; vm_compute; reflexivity. Qed.
