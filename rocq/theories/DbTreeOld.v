(** Model of [DBTree.old_get_split] (/repo/src/gaspra/db_tree.py:141-153) and of the
    statements it uses (db_tree_sql.py:148-168).  The class keeps this method beside
    the one it uses, which looks at the two child slots of a row instead. *)
From Verif Require Import Base Tree Versions DbTree.

Section DbTreeOld.
Context {K : Type} {E : Teq K}.

(** OLD_GET_BEST_PATH (db_tree_sql.py:154-168): of all rows whose parent_rid is the
    given one, that with the largest (height, rowid); rows are numbered from 0, see
    DbTree.v *)
Fixpoint old_best_from (i : nat) (l : table K) (rid : nat) (best : option (nat * row K)) : option (nat * row K) :=
  match l with
  | [] => best
  | r :: l =>
    old_best_from (S i) l rid
      (if is_rid (r_parent_rid r) rid then
         match best with
         | None => Some (i, r)
         | Some b => if better (i, r) b then Some (i, r) else best
         end
       else best)
  end.
Definition old_best_path (t : table K) (rid : nat) : option (nat * row K) := old_best_from 0 t rid None.

(** db_tree.py:141-153, old_get_split; the heights bound the rounds *)
Fixpoint d_old_split_loop (fuel depth : nat) (t : table K) (tag : K) (rid height : nat) (path : list K)
  : res (K * list K) :=
  if depth <? height then
    match fuel with
    | 0 => Err OutOfFuel
    | S fuel =>
      match old_best_path t rid with
      | None => Err TypeError
      | Some (j, c) => d_old_split_loop fuel (S depth) t (r_tag c) j (r_height c) (path ++ [r_tag c])
      end
    end
  else Ok (tag, path).
Definition d_old_get_split (t : table K) (tag : K) : res (K * list K) :=
  match row_of t tag with
  | None => Err TypeError
  | Some (i, r) => d_old_split_loop (fold_right Nat.max 0 (map r_height t)) 1 t tag i (r_height r) [tag]
  end.
End DbTreeOld.
