(** Copies of the functions of /repo/src/gaspra/versions.py that retrieve a version,
    counting the bytes copied from stored diffs and the tokens copied from one version to
    the next.  What the tokenizer does is not counted (the default one does nothing). *)
From Coq Require Import ZArith.
From Verif Require Import Base Changesets Serialize SerializeCost Tokenizers Tree Versions.
Local Open Scope nat_scope.

(** changesets.py:274-292, [apply]: each slice of the version is copied, and everything
    once more when it is joined.  (The join of a single piece copies nothing; this is
    counted too.) *)
Definition sliced {T} (version : list T) (patch : list (pitem T)) : nat :=
  list_sum (map (fun i => match i with PSlice s => length (sl version s) | PData _ => 0 end) patch).
Definition apply_n {T} (patch : list (pitem T)) (version : list T) : nat * list T :=
  let r := apply patch version in (sliced version patch + length r, r).

Section Cost.
Context {K : Type} {E : Teq K}.
Variable re_w : Z -> bool.
Variable tk : tkind.
Variables HS DS : store K.
Variable TR : tree_impl K.
Notation vst := (@vstate K HS DS TR).

(** versions.py:94-114, [_retrieve_using_path] *)
Fixpoint retrieve_loop_n (v : vst) (st : tstate) (toks : list Z) (path : list K) : nat * res (list Z) :=
  match path with
  | [] => (0, let* c := decode tk st toks in Ok (raw c))
  | tag :: path =>
    match s_get DS (diffs v) tag with
    | Err e => (0, Err e)
    | Ok d =>
      let '(n, (items, stop)) := deserialize_changeset_n d in
      let '(st, r) := encode_items re_w tk st items in
      match r, stop with
      | Err e, _ => (n, Err e)
      | Ok _, Some e => (n, Err e)
      | Ok patch, None =>
        let '(k, toks) := apply_n patch toks in
        let '(m, r) := retrieve_loop_n v st toks path in (n + k + m, r)
      end
    end
  end.
Definition retrieve_using_path_n (v : vst) (path : list K) : nat * res (list Z) :=
  match path with
  | [] => (0, Err IndexError)
  | root :: path =>
    match s_get HS (heads v) root with
    | Err e => (0, Err e)
    | Ok patched =>
      let '(st, r) := encode re_w tk new_tokenizer (CBytes patched) in
      match r with
      | Err e => (0, Err e)
      | Ok toks => retrieve_loop_n v st toks path
      end
    end
  end.

(** versions.py:116-124, [get]; looking up the path is not counted, it has as many steps
    as the path has tags. *)
Definition get_n (v : vst) (tag : K) : nat * res (option (list Z)) :=
  match tr_path_to TR (tree v) tag with
  | Err e => (0, Err e)
  | Ok None | Ok (Some []) => (0, Ok None)
  | Ok (Some path) => let '(n, r) := retrieve_using_path_n v path in (n, let* r := r in Ok (Some r))
  end.
End Cost.
