(** [merge_token_sequence] with its loop iterations counted.  Each function below is the one
    of the same name in [Merge] with one more result; [MergeCostProofs] shows that dropping
    the count gives back that function.  Slices, joins and copies of lists are not counted. *)
From Verif Require Import Base Changesets Merge DiffCost.

Section Cost.
Context {T : Type} {E : Teq T}.

(** common.py:45-50, [common_prefix_length]: one for every pair of tokens compared. *)
Fixpoint common_prefix_length_n (a b : list T) : nat * nat :=
  match a, b with
  | x :: a', y :: b' =>
    if teq x y then let '(l, k) := common_prefix_length_n a' b' in (S l, S k) else (0, 1)
  | _, _ => (0, 0)
  end.

(** merge.py:175-197 and 257-272: the iterations in [process_fragments] are those of the two
    calls of [common_prefix_length] in [change_change]. *)
Definition process_steps (f0 f1 : frag T) (within : bool) : nat :=
  match f0, f1 with
  | FChange i0 d0 n0, FChange i1 d1 n1 =>
    if within || has_composable_changes i0 n0 i1 n1 then 0
    else snd (common_prefix_length_n i0 i1) + snd (common_prefix_length_n d0 d1)
  | _, _ => 0
  end.

(** merge.py:125-172, [_merge] and [flush_remaining]: one for every round and its comparisons,
    one for every fragment flushed. *)
Fixpoint merge_loop_n (fuel : nat) (fs0 fs1 : list (frag T)) (within : bool)
  : option (list (ofrag T) * nat) :=
  match fs0, fs1 with
  | f0 :: r0, f1 :: r1 =>
    match fuel with
    | 0 => None
    | S fuel' =>
      let '(output, tail0, tail1, within') := process_fragments f0 f1 within in
      match merge_loop_n fuel' (olist tail0 ++ r0) (olist tail1 ++ r1) within' with
      | Some (rest, k) => Some (olist output ++ rest, S (process_steps f0 f1 within + k))
      | None => None
      end
    end
  | _, _ => Some (flush_remaining fs0 fs1 within, length (flush_remaining fs0 fs1 within))
  end.

(** changesets.py:213-261, [find_changeset] on whole sequences. *)
Definition whole_changeset_n (o m : list T) : res (changeset T * nat) :=
  find_changeset_n (S (length o)) o m (0, None) (0, None).

(** merge.py:60-91, [consolidate_conflicts]: the iterations of the searches, and separately
    those of the loops (one for each round, each fragment of a group and each fragment of a
    stream). *)
Fixpoint consolidate_conflicts_n (fuel : nat) (k : kind) (l : list (ofrag T)) : res (list (ofrag T) * (nat * nat)) :=
  match l with
  | [] => Ok ([], (0, 0))
  | _ =>
    match fuel with
    | 0 => Err OutOfFuel
    | S fuel' =>
      let '(group, r1) := take_conflicts l in
      let* version1 := join k (map fst group) in
      let* version2 := join k (map snd group) in
      let* c := whole_changeset_n version2 version1 in
      let redone := map (fun f => match f with
                                  | FCopy i n => OFrag (FCopy i n)
                                  | FChange i d _ => OConf (Some i) (Some d)
                                  end) (cs_stream version2 (fst c)) in
      let '(others, r2) := take_frags r1 in
      let* rest := consolidate_conflicts_n fuel' k r2 in
      Ok (redone ++ map OFrag others ++ fst rest,
          (snd c + fst (snd rest), S (length group + length redone + length others + snd (snd rest))))
    end
  end.

(** merge.py:94-122, [consolidate_all]: one for each round and each fragment of a group. *)
Fixpoint consolidate_items_n (fuel : nat) (k : kind) (l : list (ofrag T)) : res (list (ditem T) * nat) :=
  match l with
  | [] => Ok ([], 0)
  | _ =>
    match fuel with
    | 0 => Err OutOfFuel
    | S fuel' =>
      let '(group, r1) := take_conflicts l in
      let* version1 := join k (map fst group) in
      let* version2 := join k (map snd group) in
      let '(others, r2) := take_frags r1 in
      let* insert := join k (map (fun f => Some (f_insert f)) others) in
      let* rest := consolidate_items_n fuel' k r2 in
      Ok ((if nonempty version1 || nonempty version2 then [DChange version1 version2] else []) ++
          (if nonempty insert then [DText insert] else []) ++ fst rest,
          S (length group + length others + snd rest))
    end
  end.

(** The iterations of a merge: the searches of the two diffs (merge.py:29-30), the searches in
    the conflicts (73), and everything else. *)
Record merge_steps := mkSteps { s_diff0 : nat; s_diff1 : nat; s_conflicts : nat; s_rest : nat }.
Definition total_steps (s : merge_steps) : nat := s_diff0 s + s_diff1 s + s_conflicts s + s_rest s.

(** merge.py:17-57, [merge_token_sequence] and [consolidate]; the fragments of the two streams
    are counted too (32-33). *)
Definition merge_n (k : kind) (parent branch0 branch1 : list T) : res (list (ditem T) * merge_steps) :=
  let* c0 := whole_changeset_n parent branch0 in
  let* c1 := whole_changeset_n parent branch1 in
  let fs0 := cs_stream parent (fst c0) in
  let fs1 := cs_stream parent (fst c1) in
  match merge_loop_n (length fs0 + length fs1) fs0 fs1 false with
  | None => Err OutOfFuel
  | Some (merged, km) =>
    let* staged := consolidate_conflicts_n (length merged) k merged in
    let* items := consolidate_items_n (length (fst staged)) k (fst staged) in
    Ok (match fst items with [] => [DText []] | _ => fst items end,
        mkSteps (snd c0) (snd c1) (fst (snd staged))
          (length fs0 + length fs1 + km + snd (snd staged) + snd items))
  end.
End Cost.
