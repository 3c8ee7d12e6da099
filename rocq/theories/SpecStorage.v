(** What storing a version as a diff costs (C81). *)
From Coq Require Import ZArith.
From Verif Require Import Base Changesets Tokenizers Tree Versions.

(** the bytes a diff of two texts inserts *)
Definition bytes_inserted (d : list titem) : nat :=
  list_sum (map (fun i => match i with TText _ => 0 | TChange a _ => length (raw a) end) d).
(** its pieces that are in the second text: those kept, and those inserted *)
Definition pieces_after (d : list titem) : nat :=
  length (filter (fun i => match i with TText _ => true | TChange a _ => negb (length (raw a) =? 0) end) d).

(** the bytes a number of at most [n] takes in what is stored *)
Definition width (n : Z) : nat :=
  if (n <=? 240)%Z then 1 else if (n <=? 2287)%Z then 2 else if (n <=? 67823)%Z then 3
  else if (n <? 2 ^ 24)%Z then 4 else if (n <? 2 ^ 32)%Z then 5 else if (n <? 2 ^ 40)%Z then 6
  else if (n <? 2 ^ 48)%Z then 7 else if (n <? 2 ^ 56)%Z then 8 else 9.

(** no inserted piece is empty *)
Definition full (i : pitem Z) : Prop := match i with PData [] => False | _ => True end.
(** the change_count that version_info gives, in memory *)
Definition change_count {K} {E : Teq K} (v : vstate (dict_store K) (dict_store K) (memory_tree K)) (u : K) : nat :=
  match version_info (dict_store K) (dict_store K) (memory_tree K) v u with Ok (Some (_, _, n)) => n | _ => 0 end.

(** the tokens a tokenizer makes of a version *)
Definition token_count (re_w : Z -> bool) (tk : tkind) (b : list Z) : nat :=
  match encode re_w tk new_tokenizer (CBytes b) with (_, Ok ts) => length ts | _ => 0 end.
