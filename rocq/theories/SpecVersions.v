(** Specification vocabulary for histories of added versions.  It speaks about the
    calls of [add] only. *)
From Coq Require Import ZArith.
From Verif Require Import Base Tokenizers SpecTokenizers Versions.

(** contents of a version: bytes that the tokenizer accepts, of a length that
    Python objects can have (2**63 - 1 at most) *)
Definition storable (k : tkind) (b : list Z) : Prop :=
  encodable k (CBytes b) /\ (Z.of_nat (length b) < 2 ^ 63)%Z.

Section Histories.
Context {K : Type}.

(** a call of [add]: tag, contents, base *)
Definition adding : Type := K * list Z * option K.
Definition tag_of (a : adding) : K := fst (fst a).
Definition bytes_of (a : adding) : list Z := snd (fst a).
Definition base_of (a : adding) : option K := snd a.
Implicit Type h : list adding.

Definition added h (t : K) : Prop := In t (map tag_of h).

(** [t] was added and is not the base of a later add *)
Definition is_head h (t : K) : Prop :=
  exists pre b base post, h = pre ++ (t, b, base) :: post /\ ~ In (Some t) (map base_of post).

(** every tag is new, is not its own base, and the contents are storable *)
Definition fresh k h : Prop :=
  NoDup (map tag_of h) /\
  Forall (fun a => base_of a <> Some (tag_of a) /\ storable k (bytes_of a)) h.

(** moreover every base is a head when it is used *)
Definition valid k h : Prop :=
  fresh k h /\
  forall pre a post, h = pre ++ a :: post ->
    match base_of a with None => True | Some x => is_head pre x end.

(** no branch has more than three versions *)
Definition short h : Prop :=
  ~ exists t1 b2 t2 b3 t3 b4 t4,
      In (t2, b2, Some t1) h /\ In (t3, b3, Some t2) h /\ In (t4, b4, Some t3) h.
End Histories.
Arguments adding : clear implicits.

(** a store that counts how often something is written to it *)
Definition counted {K : Type} (S : store K) : store K :=
  mkStore K (nat * store_t S) (0, s_empty S)
    (fun d k => s_get S (snd d) k)
    (fun k b d => (1 + fst d, s_set S k b (snd d)))
    (fun k d => let '(d', r) := s_del S k (snd d) in ((fst d, d'), r))
    (fun d k => s_mem S (snd d) k)
    (match s_dot_get S with Some f => Some (fun d k => f (snd d) k) | None => None end).
