(** Specification vocabulary for the histories the line tokenizer keeps (C36). *)
From Coq Require Import ZArith.
From Verif Require Import Base Changesets Tokenizers SpecVersions SpecTokens.
Local Open Scope Z_scope.

Section SpecLineVersions.
Context {K : Type}.
Implicit Type h : list (adding K).

(** [y] is the base of [t], or the base of that, and so on *)
Inductive older h : K -> K -> Prop :=
| older_base t b x : In (t, b, Some x) h -> older h x t
| older_more t b x y : In (t, b, Some x) h -> older h y x -> older h y t.

Definition ends_line (d : list Z) : Prop := exists x, d = x ++ [10].

(** no piece that a diff by lines from [new] back to [old] inserts ends with a newline *)
Definition quiet (re_w : Z -> bool) (new old : list Z) : Prop :=
  forall st d, diff re_w KLine new_tokenizer (CBytes new) (CBytes old) = (st, Ok d) ->
  forall a b, In (TChange a b) d -> ~ ends_line (raw a).
Definition quiet_history re_w h : Prop := forall t b base x bx basex,
  In (t, b, base) h -> In (x, bx, basex) h -> older h x t -> quiet re_w b bx.

(** [new] is [old] with whole lines put before it and anything after it *)
Definition surrounds (new old : list Z) : Prop :=
  exists y z, new = y ++ old ++ z /\ (y = [] \/ ends_line y).
Definition surrounding_history h : Prop := forall t b x bx basex,
  In (t, b, Some x) h -> In (x, bx, basex) h -> surrounds b bx.

(** [l] is [m] with some elements left out *)
Inductive part_of {A} : list A -> list A -> Prop :=
| part_nil : part_of [] []
| part_keep x l m : part_of l m -> part_of (x :: l) (x :: m)
| part_skip x l m : part_of l m -> part_of l (x :: m).
(** every version has different lines, among them those of its base, in their order *)
Definition inserting_history re_w h : Prop :=
  (forall t b base ls, In (t, b, base) h -> units re_w KLine (CBytes b) ls -> NoDup ls) /\
  (forall t b x bx basex ls lsx, In (t, b, Some x) h -> In (x, bx, basex) h ->
     units re_w KLine (CBytes b) ls -> units re_w KLine (CBytes bx) lsx -> part_of lsx ls).
End SpecLineVersions.
