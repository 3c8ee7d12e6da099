(** Calls that do not get in each other's way (C124).  It speaks about the calls only. *)
From Coq Require Import ZArith.
From Verif Require Import Base Tokenizers Versions SpecVersions SpecLineage Concurrent.

Section Calls.
Context {K : Type}.
Implicit Type h : list (adding K).

Definition adds_of (calls : list call) : list (adding K) :=
  flat_map (fun c => match c with Add a => [a] | Get _ => [] end) calls.

(** after [h], calls of [add] on different heads, or without a base, and calls of [get] for
    versions that none of these heads was made from *)
Definition separate h (calls : list call) : Prop :=
  (forall a x, In (Add a) calls -> base_of a = Some x -> is_head h x) /\
  (forall i j a a' x, nth_error calls i = Some (Add a) -> nth_error calls j = Some (Add a') ->
     base_of a = Some x -> base_of a' = Some x -> i = j) /\
  (forall u, In (Get u) calls -> added h u /\
     forall a x, In (Add a) calls -> base_of a = Some x -> u <> x /\ ~ later h u x).

(** [v] does what it should do after [h]: the versions can be had, the heads are those of
    [h], and the next add succeeds if its base is one of them *)
Definition serves {E : Teq K} re_w tk (HS DS : store K) (TR : tree_impl K) h (v : vstate HS DS TR) : Prop :=
  (forall t b base, In (t, b, base) h -> get re_w tk HS DS TR v t = Ok (Some b) /\ tr_base TR (tree v) t = Ok base) /\
  (forall t, ~ added h t -> get re_w tk HS DS TR v t = Ok None) /\
  (forall t, contains HS DS TR v t = true <-> added h t) /\
  (forall t, s_mem HS (heads v) t = true <-> is_head h t) /\
  (forall a, fresh tk (h ++ [a]) -> match base_of a with None => True | Some x => is_head h x end ->
     add_result re_w tk HS DS TR v a = Ok tt).
End Calls.
