(** Specification vocabulary for serialization. *)
From Verif Require Import Base Changesets.
Local Open Scope Z_scope.

Definition is_byte (b : Z) : Prop := 0 <= b < 256.
Definition u64 (v : Z) : Prop := 0 <= v < 2 ^ 64.

(** lexicographic order on byte strings *)
Inductive lex_lt : list Z -> list Z -> Prop :=
| lex_end : forall y b, lex_lt [] (y :: b)
| lex_head : forall x y a b, x < y -> lex_lt (x :: a) (y :: b)
| lex_tail : forall x a b, lex_lt a b -> lex_lt (x :: a) (x :: b).

Definition prefix {A} (a b : list A) : Prop := exists c, b = a ++ c.

(** a patch whose slices have both bounds, all sizes below 2**64 *)
Definition item_fits (i : pitem Z) : Prop :=
  match i with
  | PData d => u64 (Z.of_nat (length d))
  | PSlice (s, Some e) => u64 (Z.of_nat s) /\ u64 (Z.of_nat e)
  | PSlice (_, None) => False
  end.
Definition patch_fits (p : list (pitem Z)) : Prop := Forall item_fits p.

(** items that contribute nothing *)
Definition idle (i : pitem Z) : bool :=
  match i with
  | PData [] => true
  | PSlice (s, Some e) => Nat.eqb s e
  | _ => false
  end.
Definition trimmed (p : list (pitem Z)) : list (pitem Z) := filter (fun i => negb (idle i)) p.
