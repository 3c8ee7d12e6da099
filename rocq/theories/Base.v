(** Shared vocabulary of the model: token equality, Python exceptions as
    values, Python slices and Python dictionaries. *)
From Coq Require Export List Arith ZArith Lia Bool.
Export ListNotations.

(** * Tokens

    gaspra works on any [Sequence[Hashable]] (/repo/src/gaspra/types.py:5-10).
    A token type is a Coq type with the boolean equality Python's [==] gives.
    [Teq] alone is enough to run the model; [TeqOk] says that [==] is genuine
    equality and is what the theorems assume (it holds for str characters,
    bytes and ints; it fails e.g. for NaN). *)
Class Teq (T : Type) := teq : T -> T -> bool.
Class TeqOk (T : Type) {E : Teq T} := teq_ok : forall x y : T, teq x y = true <-> x = y.

#[export] Instance Teq_nat : Teq nat := Nat.eqb.
#[export] Instance TeqOk_nat : TeqOk nat.
Proof. intros x y; apply Nat.eqb_eq. Qed.
#[export] Instance Teq_Z : Teq Z := Z.eqb.
#[export] Instance TeqOk_Z : TeqOk Z.
Proof. intros x y; apply Z.eqb_eq. Qed.

(** Equality of token sequences ([==] on str, bytes or tuples). *)
Fixpoint list_teq {T} {E : Teq T} (a b : list T) : bool :=
  match a, b with
  | [], [] => true
  | x :: a', y :: b' => teq x y && list_teq a' b'
  | _, _ => false
  end.
#[export] Instance Teq_list {T} {E : Teq T} : Teq (list T) := list_teq.
#[export] Instance TeqOk_list {T} {E : Teq T} {O : TeqOk T} : TeqOk (list T).
Proof.
  intros x; induction x as [|a x IH]; intros [|b y]; cbn; split; try congruence; try discriminate.
  - intros H; apply andb_true_iff in H; destruct H as [H1 H2].
    apply teq_ok in H1; apply IH in H2; congruence.
  - intros H; injection H as -> ->; apply andb_true_iff; split; [apply teq_ok|apply IH]; reflexivity.
Qed.

Section TeqFacts.
  Context {T : Type} {E : Teq T} {O : TeqOk T}.
  Lemma teq_refl (x : T) : teq x x = true.
  Proof. apply teq_ok; reflexivity. Qed.
  Lemma teq_false (x y : T) : teq x y = false <-> x <> y.
  Proof.
    destruct (teq x y) eqn:H.
    - apply teq_ok in H; split; [discriminate|congruence].
    - split; [|reflexivity]; intros _ ->; rewrite teq_refl in H; discriminate.
  Qed.
  Lemma teq_spec (x y : T) : reflect (x = y) (teq x y).
  Proof. destruct (teq x y) eqn:H; constructor; [apply teq_ok|apply teq_false]; exact H. Qed.
  Lemma T_dec (x y : T) : {x = y} + {x <> y}.
  Proof. destruct (teq_spec x y); [left|right]; assumption. Qed.
  Lemma Tlist_dec (x y : list T) : {x = y} + {x <> y}.
  Proof. apply list_eq_dec, T_dec. Qed.
End TeqFacts.

(** * Exceptions as values *)
Inductive exn : Type :=
| KeyError | IndexError | TypeError | ValueError | AttributeError
| OverflowError | RuntimeError | IntegrityError | UnicodeDecodeError
| StreamError   (* RuntimeError raised by the deserializers on a short stream *)
| RecursionError | OSError | OperationalError
| MarkupError   (* of the library rich *)
| OutOfFuel.    (* the model's fuel ran out; never a Python exception *)

Inductive res (A : Type) : Type := Ok (a : A) | Err (e : exn).
Arguments Ok {A} a.
Arguments Err {A} e.
Definition bind {A B} (r : res A) (f : A -> res B) : res B :=
  match r with Ok a => f a | Err e => Err e end.
Notation "'let*' x ':=' r 'in' k" := (bind r (fun x => k))
  (at level 200, x name, r at level 100, k at level 200, right associativity).
Notation "'let*' ' p ':=' r 'in' k" := (bind r (fun p => k))
  (at level 200, p strict pattern, r at level 100, k at level 200, right associativity).

(** * Python slices [s[i:j]] for non-negative [i], [j]; a missing stop is None. *)
Definition pyslice {A} (l : list A) (start : nat) (stop : option nat) : list A :=
  match stop with
  | None => skipn start l
  | Some j => firstn (j - start) (skipn start l)
  end.

(** * Python dictionaries: insertion-ordered, unique keys.
    Assigning an existing key keeps its place (and the stored key object). *)
Section Dict.
  Context {K V : Type} {E : Teq K}.
  Definition dict := list (K * V).
  Fixpoint dget (d : dict) (k : K) : option V :=
    match d with
    | [] => None
    | (k', v) :: d' => if teq k' k then Some v else dget d' k
    end.
  Definition dmem (d : dict) (k : K) : bool :=
    match dget d k with Some _ => true | None => false end.
  Fixpoint dset (d : dict) (k : K) (v : V) : dict :=
    match d with
    | [] => [(k, v)]
    | (k', v') :: d' => if teq k' k then (k', v) :: d' else (k', v') :: dset d' k v
    end.
  Fixpoint ddel (d : dict) (k : K) : dict :=
    match d with
    | [] => []
    | (k', v') :: d' => if teq k' k then d' else (k', v') :: ddel d' k
    end.
  Definition dkeys (d : dict) : list K := map fst d.
  Definition dvalues (d : dict) : list V := map snd d.
End Dict.
Arguments dict : clear implicits.

Section DictFacts.
  Context {K V : Type} {E : Teq K} {O : TeqOk K}.
  Implicit Type d : dict K V.

  Lemma dget_dset_same d k v : dget (dset d k v) k = Some v.
  Proof.
    induction d as [|[k' v'] d IH]; cbn.
    - now rewrite teq_refl.
    - destruct (teq k' k) eqn:H; cbn; rewrite H; [reflexivity|exact IH].
  Qed.
  Lemma dget_dset_other d k k' v : k <> k' -> dget (dset d k v) k' = dget d k'.
  Proof.
    intros Hn; induction d as [|[k0 v0] d IH]; cbn.
    - destruct (teq_spec k k'); [contradiction|reflexivity].
    - destruct (teq_spec k0 k) as [->|H]; cbn.
      + destruct (teq_spec k k'); [contradiction|reflexivity].
      + destruct (teq_spec k0 k'); [reflexivity|exact IH].
  Qed.
  Lemma dget_dset d k k' v :
    dget (dset d k v) k' = if teq k k' then Some v else dget d k'.
  Proof.
    destruct (teq_spec k k') as [->|H]; [apply dget_dset_same|apply dget_dset_other, H].
  Qed.
  Lemma dget_In d k v : dget d k = Some v -> In (k, v) d.
  Proof.
    induction d as [|[k' v'] d IH]; cbn; [discriminate|].
    destruct (teq_spec k' k) as [->|_]; intros H; [injection H as ->; auto|auto].
  Qed.
  Lemma dget_None d k : dget d k = None <-> ~ In k (dkeys d).
  Proof.
    induction d as [|[k' v'] d IH]; cbn.
    - tauto.
    - destruct (teq_spec k' k) as [->|H].
      + split; [discriminate|tauto].
      + rewrite IH; tauto.
  Qed.
  Lemma dget_Some_key d k v : dget d k = Some v -> In k (dkeys d).
  Proof. intros H; apply dget_In in H; now apply (in_map fst) in H. Qed.
  Lemma In_dget d k v : NoDup (dkeys d) -> In (k, v) d -> dget d k = Some v.
  Proof.
    induction d as [|[k' v'] d IH]; cbn; [tauto|].
    intros Hnd; inversion Hnd as [|? ? Hni Hnd']; subst.
    intros [H|H].
    - injection H as -> ->; now rewrite teq_refl.
    - destruct (teq_spec k' k) as [->|_]; [|now apply IH].
      exfalso; apply Hni; now apply (in_map fst) in H.
  Qed.
  Lemma dkeys_dset d k v :
    dkeys (dset d k v) = if dmem d k then dkeys d else dkeys d ++ [k].
  Proof.
    unfold dmem; induction d as [|[k' v'] d IH]; cbn; [reflexivity|].
    destruct (teq k' k) eqn:H; cbn; [reflexivity|].
    unfold dkeys in IH; rewrite IH; now destruct (dget d k).
  Qed.
  Lemma dmem_In d k : dmem d k = true <-> In k (dkeys d).
  Proof.
    unfold dmem; destruct (dget d k) eqn:H.
    - split; [intros _; now apply dget_Some_key in H|reflexivity].
    - apply dget_None in H; split; [discriminate|tauto].
  Qed.
  Lemma NoDup_dset d k v : NoDup (dkeys d) -> NoDup (dkeys (dset d k v)).
  Proof.
    intros H; rewrite dkeys_dset; destruct (dmem d k) eqn:Hm; [exact H|].
    assert (Hk : ~ In k (dkeys d)) by (intros C; apply dmem_In in C; congruence).
    clear Hm; revert H Hk; generalize (dkeys d) as l.
    induction l as [|x l IH]; cbn; intros H Hk; [constructor; [tauto|constructor]|].
    inversion H as [|? ? Hni Hnd']; subst; constructor.
    - rewrite in_app_iff; cbn; intros [C|[C|[]]]; [tauto|subst; tauto].
    - apply IH; [exact Hnd'|tauto].
  Qed.
  Lemma dget_ddel_same d k : NoDup (dkeys d) -> dget (ddel d k) k = None.
  Proof.
    induction d as [|[k' v'] d IH]; cbn; intros Hnd; [reflexivity|].
    inversion Hnd as [|? ? Hni Hnd']; subst.
    destruct (teq_spec k' k) as [->|H]; [now apply dget_None|].
    cbn; destruct (teq_spec k' k); [contradiction|now apply IH].
  Qed.
  Lemma dget_ddel_other d k k' : k <> k' -> dget (ddel d k) k' = dget d k'.
  Proof.
    intros Hn; induction d as [|[k0 v0] d IH]; cbn; [reflexivity|].
    destruct (teq_spec k0 k) as [->|H]; cbn.
    - destruct (teq_spec k k'); [contradiction|reflexivity].
    - now rewrite IH.
  Qed.
  Lemma In_dkeys_ddel d k x : In x (dkeys (ddel d k)) -> In x (dkeys d).
  Proof.
    induction d as [|[k' v'] d IH]; cbn; [tauto|].
    destruct (teq k' k); cbn; tauto.
  Qed.
  Lemma NoDup_ddel d k : NoDup (dkeys d) -> NoDup (dkeys (ddel d k)).
  Proof.
    induction d as [|[k' v'] d IH]; cbn; intros Hnd; [constructor|].
    inversion Hnd as [|? ? Hni Hnd']; subst.
    destruct (teq k' k); cbn; [exact Hnd'|].
    constructor; [intros C; apply In_dkeys_ddel in C; tauto|now apply IH].
  Qed.
End DictFacts.

(** List update by index: [l[i] = f(l[i])] for an index in range. *)
Fixpoint lupd {A} (l : list A) (i : nat) (f : A -> A) : list A :=
  match l, i with
  | [], _ => []
  | x :: l', 0 => f x :: l'
  | x :: l', S i' => x :: lupd l' i' f
  end.
Lemma lupd_length {A} (l : list A) i f : length (lupd l i f) = length l.
Proof. revert i; induction l as [|x l IH]; intros [|i]; cbn; auto. Qed.
Lemma nth_error_lupd {A} (l : list A) i f j :
  nth_error (lupd l i f) j = if i =? j then option_map f (nth_error l j) else nth_error l j.
Proof.
  revert i j; induction l as [|x l IH]; intros [|i] [|j]; cbn; auto; now destruct (i =? j).
Qed.

Lemma NoDup_app_intro {A} (l1 l2 : list A) :
  NoDup l1 -> NoDup l2 -> (forall x, In x l1 -> In x l2 -> False) -> NoDup (l1 ++ l2).
Proof.
  induction 1 as [|a l1 Ha H1 IH]; intros H2 H; cbn; [exact H2|].
  constructor.
  - intros C; apply in_app_or in C; destruct C as [C|C]; [contradiction|eapply H; [now left|exact C]].
  - apply IH; [exact H2|]; intros x Hx; apply H; now right.
Qed.
