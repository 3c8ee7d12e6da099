(** Lines of versions: each made from the one before it (C111, C112).  It speaks about
    the calls of [add] only. *)
From Coq Require Import ZArith.
From Verif Require Import Base Tokenizers SpecTokenizers SpecVersions.

Section Lineage.
Context {K : Type}.
Implicit Type h : list (adding K).

(** [t2] was added with the base [t1] when [t1] was a head *)
Definition built_on h (t1 t2 : K) : Prop :=
  exists pre b post, h = pre ++ (t2, b, Some t1) :: post /\ is_head pre t1.
(** [t2] was made from [t1] in one or more steps *)
Inductive later h : K -> K -> Prop :=
| later_one t1 t2 : built_on h t1 t2 -> later h t1 t2
| later_more t1 t2 t3 : built_on h t1 t2 -> later h t2 t3 -> later h t1 t3.

(** each version has the contents of the version it is made from somewhere in it *)
Definition growing h : Prop := forall t1 b1 base1 t2 b2 base2,
  built_on h t1 t2 -> In (t1, b1, base1) h -> In (t2, b2, base2) h -> exists p q, b2 = p ++ b1 ++ q.
(** ... at its beginning *)
Definition appending h : Prop := forall t1 b1 base1 t2 b2 base2,
  built_on h t1 t2 -> In (t1, b1, base1) h -> In (t2, b2, base2) h -> exists q, b2 = b1 ++ q.

(** Between the texts [a] and [b] no word is cut.  The characters of words are those for
    which [word] says so, dollars and hyphens. *)
Definition no_cut (word : Z -> bool) (a b : list Z) : Prop := forall a' x y b', a = a' ++ [x] -> b = y :: b' ->
  (word x = true \/ x = 36 \/ x = 45)%Z -> (word y = true \/ y = 36 \/ y = 45)%Z -> False.
(** each version has the text of the version it is made from somewhere in it, between
    whole words *)
Definition growing_by_words (word : Z -> bool) h : Prop := forall t1 b1 base1 t2 b2 base2,
  built_on h t1 t2 -> In (t1, b1, base1) h -> In (t2, b2, base2) h -> exists p s q, Forall scalar_value (p ++ s ++ q) /\
    b1 = flat_map utf8_char s /\ b2 = flat_map utf8_char (p ++ s ++ q) /\ no_cut word p s /\ no_cut word s q.
(** ... at its beginning *)
Definition appending_words (word : Z -> bool) h : Prop := forall t1 b1 base1 t2 b2 base2,
  built_on h t1 t2 -> In (t1, b1, base1) h -> In (t2, b2, base2) h -> exists s q, Forall scalar_value (s ++ q) /\
    b1 = flat_map utf8_char s /\ b2 = flat_map utf8_char (s ++ q) /\ no_cut word s q.
End Lineage.
