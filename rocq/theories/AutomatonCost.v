(** The construction of the suffix automaton with its loop iterations counted.
    Each function below is the one of the same name in [Automaton] with one more
    result: the number of times the body of its while loop is executed, that is
    the number of nodes visited by following links.  [AutomatonCostProofs] shows
    that dropping the count gives back the function of [Automaton]. *)
From Verif Require Import Base Automaton.

Section Cost.
Context {T : Type} {E : Teq T}.
Notation heap := (heap T).

(** suffix_automaton.py:126-129, the while loop of [extend], counted. *)
Fixpoint extend_loop_n (fuel : nat) (h : heap) (t : T) (new : nat)
         (prev cur : option nat) : option (heap * option nat * option nat * nat) :=
  match fuel with
  | 0 => None
  | S fuel' =>
    match cur with
    | None => Some (h, prev, None, 0)
    | Some c =>
      match nth_error h c with
      | None => None
      | Some nd =>
        if dmem (n_trans nd) t then Some (h, prev, Some c, 0)
        else match extend_loop_n fuel' (lupd h c (set_trans t new)) t new (Some c) (n_link nd) with
             | Some (h', p', c', k) => Some (h', p', c', S k)
             | None => None
             end
      end
    end
  end.

(** suffix_automaton.py:157-164, the while loop of [insert_node], counted. *)
Fixpoint redirect_loop_n (fuel : nat) (h : heap) (t : T) (q clone : nat)
         (cur : option nat) : option (heap * nat) :=
  match fuel with
  | 0 => None
  | S fuel' =>
    match cur with
    | None => Some (h, 0)
    | Some c =>
      match nth_error h c with
      | None => None
      | Some nd =>
        match dget (n_trans nd) t with
        | Some d =>
          if d =? q
          then match redirect_loop_n fuel' (lupd h c (set_trans t clone)) t q clone (n_link nd) with
               | Some (h', k) => Some (h', S k)
               | None => None
               end
          else Some (h, 0)
        | None => Some (h, 0)
        end
      end
    end
  end.

(** suffix_automaton.py:143-166, [insert_node], counted. *)
Definition insert_node_n (h : heap) (t : T) (p q : nat) : option (heap * nat * nat) :=
  match nth_error h p, nth_error h q with
  | Some np, Some nq =>
    let clone := length h in
    let h1 := h ++ [mkNode (n_len np + 1) (n_trans nq) (n_fe nq) false (n_link nq) []] in
    let h2 := lupd h1 q (set_link (Some clone)) in
    match redirect_loop_n (S (S (n_len np))) h2 t q clone (Some p) with
    | Some (h3, k) => Some (h3, clone, k)
    | None => None
    end
  | _, _ => None
  end.

(** suffix_automaton.py:107-140, [extend], counted. *)
Definition extend_n (h : heap) (last : nat) (t : T) : option (heap * nat * nat) :=
  match nth_error h last with
  | None => None
  | Some nl =>
    let new := length h in
    let h1 := h ++ [mkNode (n_len nl + 1) [] (n_len nl + 1) false None []] in
    match extend_loop_n (S (S (n_len nl))) h1 t new None (Some last) with
    | None => None
    | Some (h2, prev, None, k) => Some (lupd h2 new (set_link prev), new, k)
    | Some (h2, _, Some p, k) =>
      match nth_error h2 p with
      | None => None
      | Some np =>
        match dget (n_trans np) t with
        | None => None
        | Some q =>
          match nth_error h2 q with
          | None => None
          | Some nq =>
            if n_len nq =? n_len np + 1
            then Some (lupd h2 new (set_link (Some q)), new, k)
            else match insert_node_n h2 t p q with
                 | Some (h3, clone, k') => Some (lupd h3 new (set_link (Some clone)), new, k + k')
                 | None => None
                 end
          end
        end
      end
    end
  end.

(** suffix_automaton.py:92-96, the loop over tokens, counted. *)
Fixpoint extend_all_n (h : heap) (last : nat) (s : list T) : option (heap * nat * nat) :=
  match s with
  | [] => Some (h, last, 0)
  | t :: s' =>
    match extend_n h last t with
    | Some (h', last', k) =>
      match extend_all_n h' last' s' with
      | Some (h'', last'', k') => Some (h'', last'', k + k')
      | None => None
      end
    | None => None
    end
  end.

(** suffix_automaton.py:169-174, [mark_terminal_nodes], counted. *)
Fixpoint mark_terminals_n (fuel : nat) (h : heap) (cur : option nat) : option (heap * nat) :=
  match fuel with
  | 0 => None
  | S fuel' =>
    match cur with
    | None => Some (h, 0)
    | Some c =>
      match nth_error h c with
      | None => None
      | Some nd =>
        match mark_terminals_n fuel' (lupd h c set_term) (n_link nd) with
        | Some (h', k) => Some (h', S k)
        | None => None
        end
      end
    end
  end.

(** suffix_automaton.py:60-104, [build], counted: the second result is the number
    of while-loop iterations of [extend], [insert_node] and [mark_terminal_nodes]
    together.  [add_reverse_links] makes one more iteration per node. *)
Definition build_n (s : list T) : option (heap * nat) :=
  match extend_all_n [root_node] 0 s with
  | None => None
  | Some (h, last, k) =>
    match mark_terminals_n (S (S (length s))) h (Some last) with
    | None => None
    | Some (h', k') =>
      match add_reverse_links h' (seq 0 (length h')) with
      | Some h'' => Some (h'', k + k')
      | None => None
      end
    end
  end.

(** Total size of the transition dictionaries (suffix_automaton.py:14). *)
Definition trans_count (h : heap) : nat := list_sum (map (fun nd => length (n_trans nd)) h).
End Cost.
