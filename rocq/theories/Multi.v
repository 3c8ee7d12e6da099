(** Model of /repo/src/gaspra/multiple_strings.py (exported as
    [gaspra.find_lcs_multiple]).

    The type [U] is the type of everything that ends up in the concatenated
    sequence: tokens and Separators.  [mksep i] is [Separator(i)] and [issep x] is
    [type(x) is Separator] (types.py:16).  Equality and hashing of tokens is [teq],
    as for the automaton. *)
From Verif Require Import Base Automaton AutomatonCost.

Section Multi.
Context {U : Type} {E : Teq U} (mksep : nat -> U) (issep : U -> bool).

(** multiple_strings.py:13-25, [concatenate_strings]; [index] is the index
    produced by [enumerate]. *)
Fixpoint concat_from (index : nat) (ss : list (list U)) : list U :=
  match ss with
  | [] => []
  | s :: ss' => s ++ mksep index :: concat_from (S index) ss'
  end.
Definition concatenate_strings (ss : list (list U)) : list U := concat_from 0 ss.

(** Python sets of Separators, as duplicate-free lists: [set.add], [set.union]. *)
Definition set_add (a : list U) (x : U) : list U :=
  if existsb (teq x) a then a else a ++ [x].
Definition set_union (a b : list U) : list U := fold_left set_add b a.

(** multiple_strings.py:128-141, [update_shared_strings]: the set computed for a
    node with transitions [tr]; None is the KeyError of line 140. *)
Fixpoint shared_of (m : dict nat (list U)) (acc : list U) (tr : dict U nat) : option (list U) :=
  match tr with
  | [] => Some acc
  | (t, j) :: tr' =>
    if issep t then shared_of m (set_add acc t) tr'
    else match dget m j with
         | Some ms => shared_of m (set_union acc ms) tr'
         | None => None
         end
  end.

(** multiple_strings.py:83-107, the while loop.  The Python list [stack] is kept
    with its top at the head, so the children pushed by lines 100-102 come out in
    reverse order of the transitions. *)
Fixpoint multi_loop (fuel : nat) (h : heap U) (count : nat) (m : dict nat (list U))
         (stack : list nat) (max_length best : nat) : option (nat * nat) :=
  match stack with
  | [] => Some (max_length, best)
  | top :: rest =>
    match fuel with
    | 0 => None
    | S fuel' =>
      if dmem m top then multi_loop fuel' h count m rest max_length best
      else
        match nth_error h top with
        | None => None
        | Some nd =>
          if forallb (dmem m) (dvalues (n_trans nd)) then
            match shared_of m [] (n_trans nd) with
            | None => None
            | Some sh =>
              let m' := dset m top sh in
              if (length sh =? count) && (max_length <? n_len nd)
              then multi_loop fuel' h count m' rest (n_len nd) top
              else multi_loop fuel' h count m' rest max_length best
            end
          else
            multi_loop fuel' h count m
              (rev (filter (fun j => negb (dmem m j)) (dvalues (n_trans nd))) ++ top :: rest)
              max_length best
        end
    end
  end.

(** multiple_strings.py:116-125, [get_string_offsets]; [start] is
    next_string_start_pos.  A string for which no position qualifies gets no
    entry, as in Python. *)
Fixpoint get_string_offsets (start : nat) (positions : list nat) (ss : list (list U)) : list nat :=
  match ss with
  | [] => []
  | s :: ss' =>
    match find (fun p => start <=? p) positions with
    | Some p => (p - start) :: get_string_offsets (start + (length s + 1)) positions ss'
    | None => get_string_offsets (start + (length s + 1)) positions ss'
    end
  end.

(** multiple_strings.py:28-113, [find_lcs].  The fuel is twice the number of nodes
    plus the number of transitions plus two; outer None is a failure of the model
    (fuel, missing node, KeyError), inner None is Python's None. *)
Definition find_lcs_multiple (ss : list (list U)) : option (list nat * option nat) :=
  match build (concatenate_strings ss) with
  | None => None
  | Some h =>
    match ss with
    | [] => Some ([], None)
    | _ :: _ =>
      match multi_loop (2 + (2 * length h + trans_count h)) h (length ss) [] [0] 0 0 with
      | None => None
      | Some (l, best) =>
        match get_all_start_positions h best l with
        | None => None
        | Some raw => Some (get_string_offsets 0 raw ss, Some l)
        end
      end
    end
  end.
End Multi.

(** Tokens that are never equal to a Separator: the concatenated sequence is over
    the disjoint union of tokens and Separators (types.py:16). *)
Inductive mtok (T : Type) : Type := Tok (t : T) | Sep (i : nat).
Arguments Tok {T} t.
Arguments Sep {T} i.
#[global] Instance Teq_mtok {T} {E : Teq T} : Teq (mtok T) := fun x y =>
  match x, y with
  | Tok a, Tok b => teq a b
  | Sep i, Sep j => i =? j
  | _, _ => false
  end.
Definition is_Sep {T} (x : mtok T) : bool := match x with Sep _ => true | Tok _ => false end.

(** [gaspra.find_lcs_multiple] on such tokens. *)
Definition find_lcs_multi {T} {E : Teq T} (ss : list (list T)) : option (list nat * option nat) :=
  find_lcs_multiple Sep is_Sep (map (map Tok) ss).

(** Tokens that may be tuples of ints.  [Separator] is a namedtuple, so
    [Separator(i) == (i,)] and both hash alike (types.py:16), while
    [type((i,)) is Separator] is False. *)
Inductive ptok : Type := PTuple (l : list nat) | PSep (i : nat).
Definition ptuple (x : ptok) : list nat := match x with PTuple l => l | PSep i => [i] end.
#[global] Instance Teq_ptok : Teq ptok := fun x y => teq (ptuple x) (ptuple y).
Definition is_PSep (x : ptok) : bool := match x with PSep _ => true | PTuple _ => false end.
Definition find_lcs_tuples (ss : list (list (list nat))) : option (list nat * option nat) :=
  find_lcs_multiple PSep is_PSep (map (map PTuple) ss).

