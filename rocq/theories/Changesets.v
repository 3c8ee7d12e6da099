(** Model of /repo/src/gaspra/changesets.py. *)
From Verif Require Import Base Automaton.

(** A Python slice object [slice(start, stop)]; [stop] may be None. *)
Definition pslice := (nat * option nat)%type.
Definition sl {T} (l : list T) (s : pslice) : list T := pyslice l (fst s) (snd s).

Section Changesets.
Context {T : Type} {E : Teq T}.

(** types.py:17-18, the namedtuples [Change] and [CommonSlice]; the elements of
    a ChangeIterable (types.py:22). *)
Inductive citem : Type :=
| IChange (a b : list T)
| ICommon (a_slice b_slice : pslice).

(** types.py:28, elements of a PatchIterable: data or a slice. *)
Inductive pitem : Type :=
| PData (d : list T)
| PSlice (s : pslice).

(** types.py:38, elements of a DiffIterable. *)
Inductive ditem : Type :=
| DText (d : list T)
| DChange (a b : list T).

(** changesets.py:20-36, [CopyFragment], [ChangeFragment]. *)
Inductive frag : Type :=
| FCopy (insert : list T) (length : nat)
| FChange (insert delete : list T) (length : nat).

(** changesets.py:39-45 [ChangesetLeaf], 101-107 [Changeset]. *)
Inductive changeset : Type :=
| CLeaf (original modified : list T) (original_slice modified_slice : pslice)
| CNode (common_original common_modified : pslice) (prefix suffix : changeset).

Definition nonempty (l : list T) : bool := match l with [] => false | _ => true end.

(** changesets.py:47-60 and 109-120, [_stream]. *)
Fixpoint cs_stream (original : list T) (c : changeset) : list frag :=
  match c with
  | CLeaf o m _ _ => if nonempty m || nonempty o then [FChange m o (length o)] else []
  | CNode co _ p s =>
    cs_stream original p ++
    [FCopy (sl original co) (length (sl original co))] ++
    cs_stream original s
  end.

(** changesets.py:62-74 and 122-133, [as_change_stream]. *)
Fixpoint as_change_stream (c : changeset) : list citem :=
  match c with
  | CLeaf o m _ _ => if nonempty m || nonempty o then [IChange m o] else []
  | CNode co cm p s => as_change_stream p ++ [ICommon co cm] ++ as_change_stream s
  end.

(** changesets.py:76-83 and 135-146, [as_diff_stream]. *)
Fixpoint as_diff_stream (original : list T) (c : changeset) : list ditem :=
  match c with
  | CLeaf o m _ _ => if nonempty m || nonempty o then [DChange m o] else []
  | CNode co _ p s =>
    as_diff_stream original p ++ [DText (sl original co)] ++ as_diff_stream original s
  end.

(** changesets.py:85-89, 148-156, [old_apply_forward]/[old_apply_reverse]. *)
Fixpoint cs_old_forward (original : list T) (c : changeset) : list (list T) :=
  match c with
  | CLeaf _ m _ _ => [m]
  | CNode co _ p s => cs_old_forward original p ++ [sl original co] ++ cs_old_forward original s
  end.
Fixpoint cs_old_reverse (modified : list T) (c : changeset) : list (list T) :=
  match c with
  | CLeaf o _ _ _ => [o]
  | CNode _ cm p s => cs_old_reverse modified p ++ [sl modified cm] ++ cs_old_reverse modified s
  end.

(** changesets.py:165-180, [strip_forward]/[strip_reverse].  A slice object is
    always truthy in Python, so the second test only checks the type. *)
Definition strip_forward (st : list citem) : list pitem :=
  flat_map (fun c => match c with
                     | IChange a _ => if nonempty a then [PData a] else []
                     | ICommon a _ => [PSlice a]
                     end) st.
Definition strip_reverse (st : list citem) : list pitem :=
  flat_map (fun c => match c with
                     | IChange _ b => if nonempty b then [PData b] else []
                     | ICommon _ b => [PSlice b]
                     end) st.

(** changesets.py:264-271, [join_changes]: [b"".join], ["".join] and
    [tuple(chain.from_iterable(..))] all concatenate. *)
Definition join_changes (changed : list (list T)) : list T := concat changed.

(** changesets.py:274-292, [apply]. *)
Definition apply (patch : list pitem) (version : list T) : list T :=
  join_changes (map (fun i => match i with PData d => d | PSlice s => sl version s end) patch).

(** changesets.py:295-310. *)
Definition apply_forward (st : list citem) (original : list T) : list T :=
  apply (strip_forward st) original.
Definition apply_reverse (st : list citem) (modified : list T) : list T :=
  apply (strip_reverse st) modified.
Definition old_apply_forward (c : changeset) (original : list T) : list T :=
  join_changes (cs_old_forward original c).
Definition old_apply_reverse (c : changeset) (modified : list T) : list T :=
  join_changes (cs_old_reverse modified c).

(** changesets.py:213-261, [find_changeset], with the recursion depth limited
    to [depth] nested calls as the Python interpreter does.  The automaton
    queries of the inner call are those of the model, so [None] from them
    would surface as OutOfFuel. *)
Fixpoint find_changeset_lim (depth : nat) (o m : list T) (os ms : pslice) : res changeset :=
  match depth with
  | 0 => Err RecursionError
  | S depth' =>
    match find_lcs (sl o os) (sl m ms) with
    | None => Err OutOfFuel
    | Some (co, cm, cl) =>
      if cl =? 0 then Ok (CLeaf (sl o os) (sl m ms) os ms)
      else
        let common_o := (fst os + co, Some (fst os + co + cl)) in
        let common_m := (fst ms + cm, Some (fst ms + cm + cl)) in
        let* p := find_changeset_lim depth' o m (fst os, Some (fst os + co))
                                               (fst ms, Some (fst ms + cm)) in
        let* s := find_changeset_lim depth' o m (fst os + co + cl, snd os)
                                               (fst ms + cm + cl, snd ms) in
        Ok (CNode common_o common_m p s)
    end
  end.

(** [find_changeset original modified] with an interpreter stack that is large
    enough: each level consumes at least one token of each sequence. *)
Definition find_changeset (o m : list T) : res changeset :=
  find_changeset_lim (S (length o)) o m (0, None) (0, None).

(** changesets.py:183-210, [diff_token_sequences]. *)
Definition diff_token_sequences (o m : list T) : res (list ditem) :=
  let* c := find_changeset o m in Ok (as_diff_stream o c).
End Changesets.
Arguments citem : clear implicits.
Arguments pitem : clear implicits.
Arguments ditem : clear implicits.
Arguments frag : clear implicits.
Arguments changeset : clear implicits.
