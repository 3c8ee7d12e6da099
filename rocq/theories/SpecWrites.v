(** A store that writes down what is written to it (C121). *)
From Verif Require Import Base Versions SpecWays.

(** the keys that were written, newest first, beside the store *)
Definition logged {K : Type} (S : store K) : store K :=
  mkStore K (list K * store_t S) ([], s_empty S)
    (fun d k => s_get S (snd d) k)
    (fun k b d => (k :: fst d, s_set S k b (snd d)))
    (fun k d => let '(d', r) := s_del S k (snd d) in ((fst d, d'), r))
    (fun d k => s_mem S (snd d) k)
    (match s_dot_get S with Some f => Some (fun d k => f (snd d) k) | None => None end).

(** how often [t] was written *)
Fixpoint times {K : Type} {E : Teq K} (t : K) (l : list K) : nat :=
  match l with [] => 0 | k :: l => (if teq k t then 1 else 0) + times t l end.

(** [js] are the versions, of the [m] versions of a line, from which version [i] was kept
    as a diff as soon as they were added *)
Definition write_list (m i : nat) (js : list nat) : Prop :=
  NoDup js /\ forall j, In j js <-> j < m /\ hangs (S j) i j.
