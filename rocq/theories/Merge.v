(** Model of /repo/src/gaspra/merge.py and of [common_prefix_length] and the
    joiners of common.py.

    Stacks are lists whose head is the top (Python reverses the fragment lists
    and pops from the end).  Fragments are dataclass instances, hence always
    truthy; [None] is Python's None. *)
From Verif Require Import Base Changesets.

(** Which of the three joiners of common.py:18-42 is used.  The sequences are
    lists in every case; the difference is that [b"".join] rejects the literal
    [""] which merge.py uses as an empty version. *)
Inductive kind : Type := KStr | KBytes | KTuple.

Section Merge.
Context {T : Type} {E : Teq T}.

(** changesets.py:33-36, [ConflictFragment].  A version is a sequence or the
    literal [""] of merge.py:168-170 and 206-207, represented by None. *)
Definition version := option (list T).
Inductive ofrag : Type :=
| OFrag (f : frag T)
| OConf (version1 version2 : version).

Definition f_length (f : frag T) : nat :=
  match f with FCopy _ n => n | FChange _ _ n => n end.
Definition f_insert (f : frag T) : list T :=
  match f with FCopy i _ => i | FChange i _ _ => i end.

(** common.py:45-50, [common_prefix_length], written by recursion instead of an
    enumeration of zip(a, b). *)
Fixpoint common_prefix_length (a b : list T) : nat :=
  match a, b with
  | x :: a', y :: b' => if teq x y then S (common_prefix_length a' b') else 0
  | _, _ => 0
  end.

(** merge.py:350-364, [split_copy_fragment]. *)
Definition split_copy_fragment (ins : list T) (flen length : nat)
  : option (frag T) * option (frag T) :=
  ((if 0 <? length then Some (FCopy (firstn length ins) length) else None),
   (if length <? flen then Some (FCopy (skipn length ins) (flen - length)) else None)).

(** merge.py:367-387, [split_change_fragment]. *)
Definition split_change_fragment (ins del : list T) (flen insert_length length : nat)
  : option (frag T) * option (frag T) :=
  ((if (0 <? length) || (0 <? insert_length)
    then Some (FChange (firstn insert_length ins) (firstn length del) length) else None),
   (if (length <? flen) || (insert_length <? List.length ins)
    then Some (FChange (skipn insert_length ins) (skipn length del) (flen - length)) else None)).

(** merge.py:343-347, [split_fragment]. *)
Definition split_fragment (f : frag T) (length : nat) : option (frag T) * option (frag T) :=
  match f with
  | FCopy i n => split_copy_fragment i n length
  | FChange i d n => split_change_fragment i d n (List.length i) length
  end.

(** merge.py:200-210, [pending_conflict]. *)
Definition pending_conflict (f0 f1 : frag T) : option ofrag * option (frag T) * option (frag T) :=
  let min_length := Nat.min (f_length f0) (f_length f1) in
  let '(head0, tail0) := split_fragment f0 min_length in
  let '(head1, tail1) := split_fragment f1 min_length in
  let from0 := match head0 with Some h => Some (f_insert h) | None => None end in
  let from1 := match head1 with Some h => Some (f_insert h) | None => None end in
  (Some (OConf from0 from1), tail0, tail1).

(** merge.py:213-230, [copy_copy].  [fragment0 == longer] (line 225) is a
    comparison by value: with different lengths it tells the two apart, and
    with equal lengths [longer] is fragment0 itself. *)
Definition copy_copy (i0 : list T) (n0 : nat) (i1 : list T) (n1 : nat)
  : option ofrag * option (frag T) * option (frag T) :=
  if n0 <? n1
  then (Some (OFrag (FCopy i0 n0)), None, snd (split_copy_fragment i1 n1 n0))
  else (Some (OFrag (FCopy i1 n1)),
        (if n1 =? n0 then None else snd (split_copy_fragment i0 n0 n1)), None).

(** merge.py:233-254, [copy_change]; returns output, copy_tail, change_tail. *)
Definition copy_change (ic : list T) (nc : nat) (i d : list T) (n : nat)
  : option ofrag * option (frag T) * option (frag T) :=
  let smaller_length := Nat.min nc n in
  if n =? smaller_length
  then (Some (OFrag (FChange i d n)),
        (if smaller_length <? nc then snd (split_copy_fragment ic nc smaller_length) else None),
        None)
  else
    let '(head0, head1) := split_change_fragment i d n (List.length i) smaller_length in
    ((match head0 with Some h => Some (OConf (Some (f_insert h)) (Some ic)) | None => None end),
     None,
     head1).

(** merge.py:275-289, [has_composable_changes]. *)
Definition has_composable_changes (i0 : list T) (n0 : nat) (i1 : list T) (n1 : nat) : bool :=
  ((n0 =? 0) && (List.length i1 =? 0)) || ((List.length i0 =? 0) && (n1 =? 0)).

(** merge.py:292-308, [compose_changes]; the last branch (line 308) is
    unreachable after [has_composable_changes]. *)
Definition compose_changes (i0 d0 : list T) (n0 : nat) (i1 d1 : list T) (n1 : nat)
  : option (frag T) * option (frag T) :=
  if (n0 =? 0) && (List.length i1 =? 0)
  then (None, Some (FChange i0 d1 n1))
  else (Some (FChange i1 d0 n0), None).

(** merge.py:311-319, [are_identical_changes]. *)
Definition are_identical_changes (i0 : list T) (n0 : nat) (i1 : list T) (n1 : nat)
  (insert_length delete_length : nat) : bool :=
  (List.length i0 =? List.length i1) && (List.length i1 =? insert_length) &&
  (n0 =? n1) && (n1 =? delete_length).

(** merge.py:322-340, [ordinary_conflict]. *)
Definition ordinary_conflict (i0 d0 : list T) (n0 : nat) (i1 d1 : list T) (n1 : nat)
  : option ofrag * option (frag T) * option (frag T) :=
  let length := Nat.min n0 n1 in
  let '(head0, tail0) := split_change_fragment i0 d0 n0 (List.length i0) length in
  let '(head1, tail1) := split_change_fragment i1 d1 n1 (List.length i1) length in
  ((match head0, head1 with
    | Some h0, Some h1 => Some (OConf (Some (f_insert h0)) (Some (f_insert h1)))
    | _, _ => None
    end), tail0, tail1).

(** merge.py:257-272, [change_change]; the last component is within_conflict. *)
Definition change_change (i0 d0 : list T) (n0 : nat) (i1 d1 : list T) (n1 : nat)
  : option ofrag * option (frag T) * option (frag T) * bool :=
  if has_composable_changes i0 n0 i1 n1
  then let '(t0, t1) := compose_changes i0 d0 n0 i1 d1 n1 in (None, t0, t1, false)
  else
    let insert_length := common_prefix_length i0 i1 in
    let delete_length := common_prefix_length d0 d1 in
    if are_identical_changes i0 n0 i1 n1 insert_length delete_length
    then (Some (OFrag (FChange i0 d0 n0)), None, None, false)
    else (ordinary_conflict i0 d0 n0 i1 d1 n1, true).

(** merge.py:175-197, [process_fragments]. *)
Definition process_fragments (f0 f1 : frag T) (within : bool)
  : option ofrag * option (frag T) * option (frag T) * bool :=
  match f0, f1 with
  | FCopy i0 n0, FCopy i1 n1 => (copy_copy i0 n0 i1 n1, false)
  | _, _ =>
    if within then (pending_conflict f0 f1, within)
    else match f0, f1 with
         | FChange i0 d0 n0, FChange i1 d1 n1 => change_change i0 d0 n0 i1 d1 n1
         | FCopy ic nc, FChange i d n => (copy_change ic nc i d n, within)
         | FChange i d n, FCopy ic nc =>
           let '(output, tail1, tail0) := copy_change ic nc i d n in
           (output, tail0, tail1, within)
         | FCopy i0 n0, FCopy i1 n1 => (copy_copy i0 n0 i1 n1, false)
         end
  end.

(** merge.py:164-172, [flush_remaining] (called when at least one stack is not
    empty, line 160). *)
Definition flush_remaining (fs0 fs1 : list (frag T)) (within : bool) : list ofrag :=
  match fs0 with
  | _ :: _ =>
    map (fun f => if within then OConf (Some (f_insert f)) None else OFrag f) fs0
  | [] => map (fun f => if within then OConf None (Some (f_insert f)) else OFrag f) fs1
  end.

Definition olist {A} (o : option A) : list A := match o with Some x => [x] | None => [] end.

(** merge.py:125-161, [_merge]; every round removes a fragment from one of the
    stacks, so fuel = number of fragments + 1 suffices. *)
Fixpoint merge_loop (fuel : nat) (fs0 fs1 : list (frag T)) (within : bool)
  : option (list ofrag) :=
  match fs0, fs1 with
  | f0 :: r0, f1 :: r1 =>
    match fuel with
    | 0 => None
    | S fuel' =>
      let '(output, tail0, tail1, within') := process_fragments f0 f1 within in
      match merge_loop fuel' (olist tail0 ++ r0) (olist tail1 ++ r1) within' with
      | Some rest => Some (olist output ++ rest)
      | None => None
      end
    end
  | _, _ => Some (flush_remaining fs0 fs1 within)
  end.
Definition _merge (fs0 fs1 : list (frag T)) : option (list ofrag) :=
  merge_loop (length fs0 + length fs1) fs0 fs1 false.

(** common.py:18-27, the joiners. [chain( *g)] and ["".join(g)] accept the
    literal [""]; [b"".join(g)] raises TypeError on it. *)
Definition is_literal (v : version) : bool := match v with None => true | Some _ => false end.
Definition vseq (v : version) : list T := match v with Some l => l | None => [] end.
Definition join (k : kind) (vs : list version) : res (list T) :=
  match k with
  | KBytes => if existsb is_literal vs then Err TypeError else Ok (concat (map vseq vs))
  | _ => Ok (concat (map vseq vs))
  end.

(** The inner while loops popping a run of conflicts or of other fragments
    (merge.py:67-69, 88-91, 102-104, 113-115). *)
Fixpoint take_conflicts (l : list ofrag) : list (version * version) * list ofrag :=
  match l with
  | OConf a b :: l' => let '(g, r) := take_conflicts l' in ((a, b) :: g, r)
  | _ => ([], l)
  end.
Fixpoint take_frags (l : list ofrag) : list (frag T) * list ofrag :=
  match l with
  | OFrag f :: l' => let '(g, r) := take_frags l' in (f :: g, r)
  | _ => ([], l)
  end.

(** merge.py:60-91, [consolidate_conflicts]. *)
Fixpoint consolidate_conflicts (fuel : nat) (k : kind) (l : list ofrag) : res (list ofrag) :=
  match l with
  | [] => Ok []
  | _ =>
    match fuel with
    | 0 => Err OutOfFuel
    | S fuel' =>
      let '(group, r1) := take_conflicts l in
      let* version1 := join k (map fst group) in
      let* version2 := join k (map snd group) in
      let* c := find_changeset version2 version1 in
      let redone := map (fun f => match f with
                                  | FCopy i n => OFrag (FCopy i n)
                                  | FChange i d _ => OConf (Some i) (Some d)
                                  end) (cs_stream version2 c) in
      let '(others, r2) := take_frags r1 in
      let* rest := consolidate_conflicts fuel' k r2 in
      Ok (redone ++ map OFrag others ++ rest)
    end
  end.

(** merge.py:94-122, [consolidate_all]; the result items before the final
    "nothing was output" test. *)
Fixpoint consolidate_items (fuel : nat) (k : kind) (l : list ofrag) : res (list (ditem T)) :=
  match l with
  | [] => Ok []
  | _ =>
    match fuel with
    | 0 => Err OutOfFuel
    | S fuel' =>
      let '(group, r1) := take_conflicts l in
      let* version1 := join k (map fst group) in
      let* version2 := join k (map snd group) in
      let '(others, r2) := take_frags r1 in
      let* insert := join k (map (fun f => Some (f_insert f)) others) in
      let* rest := consolidate_items fuel' k r2 in
      Ok ((if nonempty version1 || nonempty version2 then [DChange version1 version2] else []) ++
          (if nonempty insert then [DText insert] else []) ++ rest)
    end
  end.
Definition consolidate_all (k : kind) (l : list ofrag) : res (list (ditem T)) :=
  let* items := consolidate_items (length l) k l in
  Ok (match items with [] => [DText []] | _ => items end).

(** merge.py:40-57, [consolidate]. *)
Definition consolidate (k : kind) (l : list ofrag) : res (list (ditem T)) :=
  let* staged := consolidate_conflicts (length l) k l in
  consolidate_all k staged.

(** merge.py:17-37, [merge_token_sequence]. *)
Definition merge_token_sequence (k : kind) (parent branch0 branch1 : list T)
  : res (list (ditem T)) :=
  let* changeset0 := find_changeset parent branch0 in
  let* changeset1 := find_changeset parent branch1 in
  match _merge (cs_stream parent changeset0) (cs_stream parent changeset1) with
  | None => Err OutOfFuel
  | Some merged => consolidate k merged
  end.
End Merge.
Arguments ofrag : clear implicits.
Arguments version : clear implicits.
