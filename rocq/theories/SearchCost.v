(** Counted copies of the searches of /repo/src/gaspra/suffix_automaton.py:184-226 and of the
    loops of /repo/src/gaspra/multiple_strings.py:83-125.  [SearchCostProofs] shows that they are
    the functions of [Automaton] and [Multi] with their iterations counted.  Not counted: the
    time of dict accesses, of set operations and of [sorted]. *)
From Verif Require Import Base Automaton AutomatonCost Multi.

Section Cost.
Context {T : Type} {E : Teq T}.
Notation heap := (heap T).

(** suffix_automaton.py:208-214, [_find_match_node], counted *)
Fixpoint find_match_node_n (h : heap) (cur : nat) (w : list T) : option (option nat * nat) :=
  match w with
  | [] => Some (Some cur, 0)
  | t :: w' =>
    match nth_error h cur with
    | None => None
    | Some nd =>
      match dget (n_trans nd) t with
      | None => Some (None, 1)
      | Some j => match find_match_node_n h j w' with Some (r, k) => Some (r, S k) | None => None end
      end
    end
  end.
(** 217-226, [follow_reverse_links], counted *)
Fixpoint follow_reverse_links_n (fuel : nat) (h : heap) (to_do all : list nat) : option (list nat * nat) :=
  match to_do with
  | [] => Some (all, 0)
  | c :: rest =>
    match fuel with
    | 0 => None
    | S fuel' =>
      match nth_error h c with
      | None => None
      | Some nd =>
        match follow_reverse_links_n fuel' h (rev (n_rev nd) ++ rest) (all ++ [c]) with
        | Some (l, k) => Some (l, S k)
        | None => None
        end
      end
    end
  end.
(** 199-205, [_get_all_start_positions], counted *)
Definition get_all_start_positions_n (h : heap) (cur len : nat) : option (list nat * nat) :=
  match follow_reverse_links_n (length h) h [cur] [] with
  | None => None
  | Some (nodes, k) =>
    match start_positions h nodes len with
    | None => None
    | Some cs => Some (dedup_sorted (sorted cs), k)
    end
  end.
(** 191-196, [find_substring_all], counted *)
Definition find_substring_all_n (h : heap) (w : list T) : option (list nat * nat) :=
  match find_match_node_n h 0 w with
  | None => None
  | Some (None, k) => Some ([], k)
  | Some (Some v, k) =>
    match get_all_start_positions_n h v (length w) with
    | Some (ps, k') => Some (ps, k + k')
    | None => None
    end
  end.
End Cost.

Section MultiCost.
Context {U : Type} {E : Teq U} (mksep : nat -> U) (issep : U -> bool).
(** multiple_strings.py:83-107, the while loop, counted *)
Fixpoint multi_loop_n (fuel : nat) (h : heap U) (count : nat) (m : dict nat (list U))
         (stack : list nat) (max_length best : nat) : option (nat * nat * nat) :=
  match stack with
  | [] => Some (max_length, best, 0)
  | top :: rest =>
    match fuel with
    | 0 => None
    | S fuel' =>
      let next m stack max_length best :=
        match multi_loop_n fuel' h count m stack max_length best with Some (r, k) => Some (r, S k) | None => None end in
      if dmem m top then next m rest max_length best
      else
        match nth_error h top with
        | None => None
        | Some nd =>
          if forallb (dmem m) (dvalues (n_trans nd)) then
            match shared_of issep m [] (n_trans nd) with
            | None => None
            | Some sh =>
              let m' := dset m top sh in
              if (length sh =? count) && (max_length <? n_len nd)
              then next m' rest (n_len nd) top
              else next m' rest max_length best
            end
          else
            next m (rev (filter (fun j => negb (dmem m j)) (dvalues (n_trans nd))) ++ top :: rest) max_length best
        end
    end
  end.
(** multiple_strings.py:116-125, [get_string_offsets]: the positions looked at until one is far enough *)
Fixpoint find_n (f : nat -> bool) (l : list nat) : option nat * nat :=
  match l with
  | [] => (None, 0)
  | x :: l => if f x then (Some x, 1) else let '(r, k) := find_n f l in (r, S k)
  end.
Fixpoint get_string_offsets_n (start : nat) (positions : list nat) (ss : list (list U)) : list nat * nat :=
  match ss with
  | [] => ([], 0)
  | s :: ss' =>
    let '(r, k) := find_n (fun p => start <=? p) positions in
    let '(l, k') := get_string_offsets_n (start + (length s + 1)) positions ss' in
    (match r with Some p => (p - start) :: l | None => l end, k + k')
  end.
(** multiple_strings.py:28-113, [find_lcs], counted: the iterations of the construction, of the while loop, of
    [follow_reverse_links], and of the loops of [get_string_offsets] *)
Definition find_lcs_multiple_n (ss : list (list U)) : option (list nat * option nat * (nat * nat * nat * nat)) :=
  match build_n (concatenate_strings mksep ss) with
  | None => None
  | Some (h, k0) =>
    match ss with
    | [] => Some ([], None, (k0, 0, 0, 0))
    | _ :: _ =>
      match multi_loop_n (2 + (2 * length h + trans_count h)) h (length ss) [] [0] 0 0 with
      | None => None
      | Some (l, best, k1) =>
        match get_all_start_positions_n h best l with
        | None => None
        | Some (raw, k2) => let '(ps, k3) := get_string_offsets_n 0 raw ss in Some (ps, Some l, (k0, k1, k2, k3))
        end
      end
    end
  end.
End MultiCost.
