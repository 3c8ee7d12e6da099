(** [find_lcs] and [find_changeset] with their loop iterations counted.  Each
    function below is the one of the same name in [Automaton] or [Changesets] with
    one more result; [DiffCostProofs] shows that dropping the count gives back that
    function. *)
From Verif Require Import Base Automaton AutomatonCost Changesets.

Section Cost.
Context {T : Type} {E : Teq T}.
Notation heap := (heap T).

(** suffix_automaton.py:265-269, the inner while loop of [find_lcs], counted. *)
Fixpoint lcs_inner_n (fuel : nat) (h : heap) (t : T) (cur cml : nat)
  : option (option nat * nat * nat * nat) :=
  match fuel with
  | 0 => None
  | S fuel' =>
    match nth_error h cur with
    | None => None
    | Some nd =>
      match dget (n_trans nd) t with
      | Some next => Some (Some next, cur, cml, 0)
      | None =>
        match n_link nd with
        | None => Some (None, cur, cml, 0)
        | Some l =>
          match nth_error h l with
          | None => None
          | Some nl =>
            match lcs_inner_n fuel' h t l (n_len nl) with
            | Some (next, cur1, cml1, k) => Some (next, cur1, cml1, S k)
            | None => None
            end
          end
        end
      end
    end
  end.

(** suffix_automaton.py:264-279, the loop of [find_lcs]; an iteration counts one and
    the iterations of the inner loop. *)
Fixpoint lcs_loop_n (h : heap) (position cur cml : nat) (best : nat * nat * nat)
         (s : list T) : option (nat * nat * nat * nat) :=
  match s with
  | [] => Some (best, 0)
  | t :: s' =>
    match lcs_inner_n (length h) h t cur cml with
    | None => None
    | Some (next, cur1, cml1, k) =>
      let '(cur2, cml2) :=
        match next with Some n => (n, cml1 + 1) | None => (cur1, cml1) end in
      match nth_error h cur2 with
      | None => None
      | Some nd2 =>
        let best' :=
          let '(bl, _, _) := best in
          if bl <? cml2 then (cml2, n_fe nd2, position + 1) else best in
        match lcs_loop_n h (S position) cur2 cml2 best' s' with
        | Some (r, k') => Some (r, S (k + k'))
        | None => None
        end
      end
    end
  end.

(** suffix_automaton.py:60-104 and 237-285 as called by wrappers.py:24-47: [build] on
    the first sequence (one iteration per token at 92-96, those of [build_n], one
    per node in add_reverse_links) and [find_lcs] on the second. *)
Definition find_lcs_n (a b : list T) : option (nat * nat * nat * nat) :=
  match build_n a with
  | None => None
  | Some (h, k) =>
    match lcs_loop_n h 0 0 0 (0, 0, 0) b with
    | None => None
    | Some ((bl, e1, e2), k') =>
      match nsub e1 bl, nsub e2 bl with
      | Some p1, Some p2 => Some (p1, p2, bl, length a + k + length h + k')
      | _, _ => None
      end
    end
  end.

(** changesets.py:213-261, [find_changeset]: the iterations of all its searches. *)
Fixpoint find_changeset_n (depth : nat) (o m : list T) (os ms : pslice) : res (changeset T * nat) :=
  match depth with
  | 0 => Err RecursionError
  | S depth' =>
    match find_lcs_n (sl o os) (sl m ms) with
    | None => Err OutOfFuel
    | Some (co, cm, cl, k) =>
      if cl =? 0 then Ok (CLeaf (sl o os) (sl m ms) os ms, k)
      else
        let common_o := (fst os + co, Some (fst os + co + cl)) in
        let common_m := (fst ms + cm, Some (fst ms + cm + cl)) in
        let* p := find_changeset_n depth' o m (fst os, Some (fst os + co))
                                             (fst ms, Some (fst ms + cm)) in
        let* s := find_changeset_n depth' o m (fst os + co + cl, snd os)
                                             (fst ms + cm + cl, snd ms) in
        Ok (CNode common_o common_m (fst p) (fst s), k + snd p + snd s)
    end
  end.

Definition diff_n (o m : list T) : res (list (ditem T) * nat) :=
  let* c := find_changeset_n (S (length o)) o m (0, None) (0, None) in
  Ok (as_diff_stream o (fst c), snd c).
End Cost.
