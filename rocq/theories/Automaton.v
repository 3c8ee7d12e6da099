(** Model of /repo/src/gaspra/suffix_automaton.py and wrappers.py.

    Python nodes are heap objects compared by identity (the dataclass [==] at
    suffix_automaton.py:161 compares [id] first, and ids are unique); here a
    node is the index of its record in the heap, in creation order, which is
    exactly the [id] field (lines 13, 32-36) and its place in [node_list]
    (lines 84, 54).  Loops run on explicit fuel and every lookup that Python
    performs unconditionally returns [None] when the model cannot follow it, so
    a theorem of the form [... = Some r] also says that the code terminates,
    never dereferences a missing node and never computes a negative position. *)
From Verif Require Import Base.

Section Automaton.
Context {T : Type} {E : Teq T}.

(** suffix_automaton.py:11-20, class Node.  The [empty] field (line 20) is the
    Python-typed empty sequence; here it is always []. *)
Record node : Type := mkNode {
  n_len : nat;
  n_trans : dict T nat;
  n_fe : nat;               (* first_endpos *)
  n_term : bool;            (* is_terminal *)
  n_link : option nat;
  n_rev : list nat          (* reverse_links *)
}.
Definition heap := list node.

Definition set_trans (t : T) (target : nat) (n : node) : node :=
  mkNode (n_len n) (dset (n_trans n) t target) (n_fe n) (n_term n) (n_link n) (n_rev n).
Definition set_link (l : option nat) (n : node) : node :=
  mkNode (n_len n) (n_trans n) (n_fe n) (n_term n) l (n_rev n).
Definition set_term (n : node) : node :=
  mkNode (n_len n) (n_trans n) (n_fe n) true (n_link n) (n_rev n).
Definition add_rev (i : nat) (n : node) : node :=
  mkNode (n_len n) (n_trans n) (n_fe n) (n_term n) (n_link n) (n_rev n ++ [i]).

(** Positions are differences of Python ints that must not be negative. *)
Definition nsub (a b : nat) : option nat := if b <=? a then Some (a - b) else None.

(** suffix_automaton.py:126-129, the first while loop of [extend].  Returns
    the heap, [previous] and the final [current].  The chain of links gets
    strictly shorter, so the length of [last] bounds the iterations. *)
Fixpoint extend_loop (fuel : nat) (h : heap) (t : T) (new : nat)
         (prev cur : option nat) : option (heap * option nat * option nat) :=
  match fuel with
  | 0 => None
  | S fuel' =>
    match cur with
    | None => Some (h, prev, None)
    | Some c =>
      match nth_error h c with
      | None => None
      | Some nd =>
        if dmem (n_trans nd) t then Some (h, prev, Some c)
        else extend_loop fuel' (lupd h c (set_trans t new)) t new (Some c) (n_link nd)
      end
    end
  end.

(** suffix_automaton.py:157-164, the while loop of [insert_node]. *)
Fixpoint redirect_loop (fuel : nat) (h : heap) (t : T) (q clone : nat)
         (cur : option nat) : option heap :=
  match fuel with
  | 0 => None
  | S fuel' =>
    match cur with
    | None => Some h
    | Some c =>
      match nth_error h c with
      | None => None
      | Some nd =>
        match dget (n_trans nd) t with
        | Some d =>
          if d =? q
          then redirect_loop fuel' (lupd h c (set_trans t clone)) t q clone (n_link nd)
          else Some h
        | None => Some h
        end
      end
    end
  end.

(** suffix_automaton.py:143-166, [insert_node]. *)
Definition insert_node (h : heap) (t : T) (p q : nat) : option (heap * nat) :=
  match nth_error h p, nth_error h q with
  | Some np, Some nq =>
    let clone := length h in
    let h1 := h ++ [mkNode (n_len np + 1) (n_trans nq) (n_fe nq) false (n_link nq) []] in
    let h2 := lupd h1 q (set_link (Some clone)) in
    match redirect_loop (S (S (n_len np))) h2 t q clone (Some p) with
    | Some h3 => Some (h3, clone)
    | None => None
    end
  | _, _ => None
  end.

(** suffix_automaton.py:107-140, [extend]. *)
Definition extend (h : heap) (last : nat) (t : T) : option (heap * nat) :=
  match nth_error h last with
  | None => None
  | Some nl =>
    let new := length h in
    let h1 := h ++ [mkNode (n_len nl + 1) [] (n_len nl + 1) false None []] in
    match extend_loop (S (S (n_len nl))) h1 t new None (Some last) with
    | None => None
    | Some (h2, prev, None) => Some (lupd h2 new (set_link prev), new)
    | Some (h2, _, Some p) =>
      match nth_error h2 p with
      | None => None
      | Some np =>
        match dget (n_trans np) t with
        | None => None
        | Some q =>
          match nth_error h2 q with
          | None => None
          | Some nq =>
            if n_len nq =? n_len np + 1
            then Some (lupd h2 new (set_link (Some q)), new)
            else match insert_node h2 t p q with
                 | Some (h3, clone) => Some (lupd h3 new (set_link (Some clone)), new)
                 | None => None
                 end
          end
        end
      end
    end
  end.

(** suffix_automaton.py:92-96, root creation and the loop over tokens. *)
Fixpoint extend_all (h : heap) (last : nat) (s : list T) : option (heap * nat) :=
  match s with
  | [] => Some (h, last)
  | t :: s' =>
    match extend h last t with
    | Some (h', last') => extend_all h' last' s'
    | None => None
    end
  end.
Definition root_node : node := mkNode 0 [] 0 false None [].
Definition build_core (s : list T) : option (heap * nat) := extend_all [root_node] 0 s.

(** suffix_automaton.py:169-174, [mark_terminal_nodes]. *)
Fixpoint mark_terminals (fuel : nat) (h : heap) (cur : option nat) : option heap :=
  match fuel with
  | 0 => None
  | S fuel' =>
    match cur with
    | None => Some h
    | Some c =>
      match nth_error h c with
      | None => None
      | Some nd => mark_terminals fuel' (lupd h c set_term) (n_link nd)
      end
    end
  end.

(** suffix_automaton.py:177-181, [add_reverse_links]: [ids] is the rest of
    [node_list]. *)
Fixpoint add_reverse_links (h : heap) (ids : list nat) : option heap :=
  match ids with
  | [] => Some h
  | i :: ids' =>
    match nth_error h i with
    | None => None
    | Some nd =>
      match n_link nd with
      | Some u => add_reverse_links (lupd h u (add_rev i)) ids'
      | None => add_reverse_links h ids'
      end
    end
  end.

(** suffix_automaton.py:60-104, [build] with the default arguments
    reverse_links=True, mark_terminals=True; the root is node 0. *)
Definition build (s : list T) : option heap :=
  match build_core s with
  | None => None
  | Some (h, last) =>
    match mark_terminals (S (S (length s))) h (Some last) with
    | None => None
    | Some h' => add_reverse_links h' (seq 0 (length h'))
    end
  end.

(** suffix_automaton.py:208-214, [_find_match_node]. Outer None: model error;
    inner None: Python None. *)
Fixpoint find_match_node (h : heap) (cur : nat) (w : list T) : option (option nat) :=
  match w with
  | [] => Some (Some cur)
  | t :: w' =>
    match nth_error h cur with
    | None => None
    | Some nd =>
      match dget (n_trans nd) t with
      | None => Some None
      | Some j => find_match_node h j w'
      end
    end
  end.

(** suffix_automaton.py:184-188, [find_substring]. *)
Definition sa_find_substring (h : heap) (w : list T) : option (option nat) :=
  match find_match_node h 0 w with
  | None => None
  | Some None => Some None
  | Some (Some v) =>
    match nth_error h v with
    | None => None
    | Some nd => match nsub (n_fe nd) (length w) with
                 | Some p => Some (Some p)
                 | None => None
                 end
    end
  end.

(** suffix_automaton.py:217-226, [follow_reverse_links].  Python's list is
    used as a stack popped at its end; [to_do] here has its top at the head,
    so the children are pushed in reverse. *)
Fixpoint follow_reverse_links (fuel : nat) (h : heap) (to_do all : list nat)
  : option (list nat) :=
  match to_do with
  | [] => Some all
  | c :: rest =>
    match fuel with
    | 0 => None
    | S fuel' =>
      match nth_error h c with
      | None => None
      | Some nd => follow_reverse_links fuel' h (rev (n_rev nd) ++ rest) (all ++ [c])
      end
    end
  end.

(** Python's [sorted] on ints. *)
Fixpoint insert_sorted (x : nat) (l : list nat) : list nat :=
  match l with
  | [] => [x]
  | y :: l' => if x <=? y then x :: l else y :: insert_sorted x l'
  end.
Fixpoint sorted (l : list nat) : list nat :=
  match l with [] => [] | x :: l' => insert_sorted x (sorted l') end.

(** suffix_automaton.py:229-234, [dedup_sorted]; [acc] is [deduped] reversed. *)
Fixpoint dedup_loop (acc l : list nat) : list nat :=
  match l with
  | [] => rev acc
  | x :: l' =>
    match acc with
    | [] => dedup_loop [x] l'
    | y :: _ => if x =? y then dedup_loop acc l' else dedup_loop (x :: acc) l'
    end
  end.
Definition dedup_sorted (l : list nat) : list nat := dedup_loop [] l.

Fixpoint start_positions (h : heap) (ids : list nat) (len : nat) : option (list nat) :=
  match ids with
  | [] => Some []
  | i :: ids' =>
    match nth_error h i with
    | None => None
    | Some nd =>
      match nsub (n_fe nd) len, start_positions h ids' len with
      | Some p, Some ps => Some (p :: ps)
      | _, _ => None
      end
    end
  end.

(** suffix_automaton.py:199-205, [_get_all_start_positions]. *)
Definition get_all_start_positions (h : heap) (cur len : nat) : option (list nat) :=
  match follow_reverse_links (length h) h [cur] [] with
  | None => None
  | Some nodes =>
    match start_positions h nodes len with
    | None => None
    | Some cs => Some (dedup_sorted (sorted cs))
    end
  end.

(** suffix_automaton.py:191-196, [find_substring_all]. *)
Definition find_substring_all (h : heap) (w : list T) : option (list nat) :=
  match find_match_node h 0 w with
  | None => None
  | Some None => Some []
  | Some (Some v) => get_all_start_positions h v (length w)
  end.

(** suffix_automaton.py:265-269, the inner while loop of [find_lcs]; returns
    [next], [current], [current_match_length]. *)
Fixpoint lcs_inner (fuel : nat) (h : heap) (t : T) (cur cml : nat)
  : option (option nat * nat * nat) :=
  match fuel with
  | 0 => None
  | S fuel' =>
    match nth_error h cur with
    | None => None
    | Some nd =>
      match dget (n_trans nd) t with
      | Some next => Some (Some next, cur, cml)
      | None =>
        match n_link nd with
        | None => Some (None, cur, cml)
        | Some l =>
          match nth_error h l with
          | None => None
          | Some nl => lcs_inner fuel' h t l (n_len nl)
          end
        end
      end
    end
  end.

(** suffix_automaton.py:264-279, the loop of [find_lcs] over [enumerate(s)].
    [best] is (longest_match_length, longest_match_s1_endpos,
    longest_match_s2_endpos). *)
Fixpoint lcs_loop (h : heap) (position cur cml : nat) (best : nat * nat * nat)
         (s : list T) : option (nat * nat * nat) :=
  match s with
  | [] => Some best
  | t :: s' =>
    match lcs_inner (length h) h t cur cml with
    | None => None
    | Some (next, cur1, cml1) =>
      let '(cur2, cml2) :=
        match next with Some n => (n, cml1 + 1) | None => (cur1, cml1) end in
      match nth_error h cur2 with
      | None => None
      | Some nd2 =>
        let best' :=
          let '(bl, _, _) := best in
          if bl <? cml2 then (cml2, n_fe nd2, position + 1) else best in
        lcs_loop h (S position) cur2 cml2 best' s'
      end
    end
  end.

(** suffix_automaton.py:237-285, [find_lcs]. *)
Definition sa_find_lcs (h : heap) (s : list T) : option (nat * nat * nat) :=
  match lcs_loop h 0 0 0 (0, 0, 0) s with
  | None => None
  | Some (bl, e1, e2) =>
    match nsub e1 bl, nsub e2 bl with
    | Some p1, Some p2 => Some (p1, p2, bl)
    | _, _ => None
    end
  end.

(** suffix_automaton.py:288-306, [all_suffixes]; the type dispatch on
    str/bytes/tuple (lines 299-306) only selects how a token is prepended.
    Fuel bounds the recursion depth (Python's recursion limit is not modelled). *)
Fixpoint prepend_all (rec : nat -> option (list (list T))) (tr : dict T nat)
  : option (list (list T)) :=
  match tr with
  | [] => Some []
  | (t, j) :: tr' =>
    match rec j, prepend_all rec tr' with
    | Some l1, Some l2 => Some (map (cons t) l1 ++ l2)
    | _, _ => None
    end
  end.
Fixpoint all_suffixes_from (fuel : nat) (h : heap) (cur : nat) : option (list (list T)) :=
  match fuel with
  | 0 => None
  | S fuel' =>
    match nth_error h cur with
    | None => None
    | Some nd =>
      match prepend_all (all_suffixes_from fuel' h) (n_trans nd) with
      | None => None
      | Some rest => Some ((if n_term nd then [[]] else []) ++ rest)
      end
    end
  end.
Definition all_suffixes (h : heap) : option (list (list T)) :=
  all_suffixes_from (length h) h 0.

(** wrappers.py:6-21, [gaspra.find_substring]. *)
Definition find_substring (search_in search_for : list T) : option (list nat) :=
  match build search_in with
  | None => None
  | Some h => find_substring_all h search_for
  end.

(** wrappers.py:24-47, [gaspra.find_lcs]. *)
Definition find_lcs (a b : list T) : option (nat * nat * nat) :=
  match build a with
  | None => None
  | Some h => sa_find_lcs h b
  end.
End Automaton.
Arguments node : clear implicits.
Arguments heap : clear implicits.
