(** Model of /repo/src/gaspra/versions.py.  A [Versions] object is built from two
    stores, a tree and a tokenizer (lines 27-32); the model takes any
    implementation of them.  The contents of versions are bytes. *)
From Verif Require Import Base Tree Changesets Serialize Tokenizers.

(** A MutableMapping from tags to bytes, as far as versions.py uses it.
    [s_dot_get] is the method [.get], which DBCollection does not have. *)
Record store (K : Type) := mkStore {
  store_t : Type;
  s_empty : store_t;
  s_get : store_t -> K -> res (list Z);              (* __getitem__ *)
  s_set : K -> list Z -> store_t -> store_t;         (* __setitem__ *)
  s_del : K -> store_t -> store_t * res unit;        (* __delitem__ *)
  s_mem : store_t -> K -> bool;                      (* __contains__ *)
  s_dot_get : option (store_t -> K -> option (list Z))
}.
Arguments s_empty {K}. Arguments s_get {K}. Arguments s_set {K}. Arguments s_del {K}.
Arguments s_mem {K}. Arguments s_dot_get {K}. Arguments store_t {K}.

(** tree.py:5-22, the protocol [Tree]. *)
Record tree_impl (K : Type) := mkTree {
  tree_t : Type;
  tr_empty : tree_t;
  tr_contains : tree_t -> K -> bool;
  tr_base : tree_t -> K -> res (option K);
  tr_add : K -> option K -> tree_t -> tree_t * res unit;
  tr_path_to : tree_t -> K -> res (option (list K));
  tr_change_parent : K -> K -> tree_t -> tree_t * res unit;
  tr_get_split : tree_t -> K -> res (K * list K)
}.
Arguments tree_t {K}. Arguments tr_empty {K}. Arguments tr_contains {K}. Arguments tr_base {K}.
Arguments tr_add {K}. Arguments tr_path_to {K}. Arguments tr_change_parent {K}. Arguments tr_get_split {K}.

(** The default stores and tree: dict and MemoryTree. *)
Definition dict_store (K : Type) {E : Teq K} : store K :=
  mkStore K (dict K (list Z)) []
    (fun d k => match dget d k with Some v => Ok v | None => Err KeyError end)
    (fun k v d => dset d k v)
    (fun k d => if dmem d k then (ddel d k, Ok tt) else (d, Err KeyError))
    dmem (Some dget).
Definition memory_tree (K : Type) {E : Teq K} : tree_impl K :=
  mkTree K (nodes K) [] m_contains m_base_version m_add m_path_to
    (fun t p => m_change_parent t (Some p)) m_get_split.

Section Versions.
Context {K : Type} {E : Teq K}.
Variable re_w : Z -> bool.      (* the character class of the symbol tokenizer *)
Variable tk : tkind.            (* tokenizer_factory *)
Variables HS DS : store K.      (* head_version, diffs *)
Variable TR : tree_impl K.      (* tree *)

Record vstate := mkV { heads : store_t HS; diffs : store_t DS; tree : tree_t TR }.
Definition v_empty : vstate := mkV (s_empty HS) (s_empty DS) (tr_empty TR).

(** versions.py:65-79, [_make_changeset], followed by [serialize_changeset]
    (line 82). *)
Fixpoint decode_items (st : tstate) (l : list (pitem Z)) : res (list (pitem Z)) :=
  match l with
  | [] => Ok []
  | PSlice s :: l => let* r := decode_items st l in Ok (PSlice s :: r)
  | PData d :: l =>
    let* c := decode tk st d in
    let* r := decode_items st l in
    Ok (PData (raw c) :: r)
  end.
Definition make_changeset (original modified : list Z) : res (list (pitem Z)) :=
  let '(st1, r1) := encode re_w tk new_tokenizer (CBytes original) in
  let* encoded_original := r1 in
  let '(st2, r2) := encode re_w tk st1 (CBytes modified) in
  let* encoded_modified := r2 in
  let* c := find_changeset encoded_original encoded_modified in
  decode_items st2 (strip_forward (as_change_stream c)).

(** versions.py:94-114, [_retrieve_using_path]. *)
Fixpoint encode_items (st : tstate) (l : list (pitem Z)) : tstate * res (list (pitem Z)) :=
  match l with
  | [] => (st, Ok [])
  | PSlice s :: l =>
    let '(st, r) := encode_items st l in (st, let* r := r in Ok (PSlice s :: r))
  | PData d :: l =>
    match encode re_w tk st (CBytes d) with
    | (st, Err e) => (st, Err e)
    | (st, Ok toks) =>
      let '(st, r) := encode_items st l in (st, let* r := r in Ok (PData toks :: r))
    end
  end.
Fixpoint retrieve_loop (v : vstate) (st : tstate) (toks : list Z) (path : list K) : res (list Z) :=
  match path with
  | [] => let* c := decode tk st toks in Ok (raw c)
  | tag :: path =>
    let* d := s_get DS (diffs v) tag in
    let '(items, stop) := deserialize_changeset d in
    let '(st, r) := encode_items st items in
    let* patch := r in
    match stop with
    | Some e => Err e
    | None => retrieve_loop v st (apply patch toks) path
    end
  end.
Definition retrieve_using_path (v : vstate) (path : list K) : res (list Z) :=
  match path with
  | [] => Err IndexError
  | root :: path =>
    let* patched := s_get HS (heads v) root in
    let '(st, r) := encode re_w tk new_tokenizer (CBytes patched) in
    let* toks := r in
    retrieve_loop v st toks path
  end.

(** versions.py:116-124, [get]; an empty path is false, like None. *)
Definition get (v : vstate) (tag : K) : res (option (list Z)) :=
  let* p := tr_path_to TR (tree v) tag in
  match p with
  | None | Some [] => Ok None
  | Some path => let* r := retrieve_using_path v path in Ok (Some r)
  end.

(** versions.py:146-147 *)
Definition contains (v : vstate) (tag : K) : bool := tr_contains TR (tree v) tag.

(** versions.py:126-144, [version_info]: base version, token count, change count. *)
Definition version_info (v : vstate) (tag : K) : res (option (option K * nat * nat)) :=
  match s_dot_get DS with
  | None => Err AttributeError
  | Some dget =>
    let* counts :=
      match dget (diffs v) tag with
      | Some d =>
        match deserialize_changeset d with
        | (_, Some e) => Err e
        | (items, None) =>
          Ok (Some (list_sum (map (fun i => match i with PData d => length d | PSlice _ => 0 end) items),
                    length items))
        end
      | None =>
        match s_dot_get HS with
        | None => Err AttributeError
        | Some hget => match hget (heads v) tag with
                       | Some h => Ok (Some (length h, 0))
                       | None => Ok None
                       end
        end
      end in
    match counts with
    | None => Ok None
    | Some (tokens, changes) =>
      let* b := tr_base TR (tree v) tag in Ok (Some (b, tokens, changes))
    end
  end.

(** * Updates.  A computation that changes the object yields the states after
    each update of a store or the tree, the final state, and the result or
    exception.  One call of a tree method counts as one update. *)
Definition vm (A : Type) := vstate -> list vstate * (vstate * res A).
Definition vret {A} (a : A) : vm A := fun v => ([], (v, Ok a)).
Definition vbind {A B} (m : vm A) (f : A -> vm B) : vm B := fun v =>
  match m v with
  | (t1, (v1, Ok a)) => let '(t2, r) := f a v1 in (t1 ++ t2, r)
  | (t1, (v1, Err e)) => (t1, (v1, Err e))
  end.
(** look without changing anything *)
Definition look {A} (f : vstate -> res A) : vm A := fun v => ([], (v, f v)).

Definition set_head (k : K) (b : list Z) : vm unit := fun v =>
  let v' := mkV (s_set HS k b (heads v)) (diffs v) (tree v) in ([v'], (v', Ok tt)).
Definition del_head (k : K) : vm unit := fun v =>
  let '(h, r) := s_del HS k (heads v) in
  let v' := mkV h (diffs v) (tree v) in ([v'], (v', r)).
Definition set_diff (k : K) (b : list Z) : vm unit := fun v =>
  let v' := mkV (heads v) (s_set DS k b (diffs v)) (tree v) in ([v'], (v', Ok tt)).
Definition on_tree (f : tree_t TR -> tree_t TR * res unit) : vm unit := fun v =>
  let '(t, r) := f (tree v) in
  let v' := mkV (heads v) (diffs v) t in ([v'], (v', r)).

(** versions.py:81-92, [_add_edge]. *)
Definition add_edge (parent_tag child_tag : K) (changeset : list (pitem Z)) : vm unit :=
  vbind (look (fun _ => serialize_changeset changeset)) (fun d =>
  vbind (set_diff child_tag d) (fun _ =>
  vbind (on_tree (tr_change_parent TR child_tag parent_tag)) (fun _ =>
  vbind (look (fun v => Ok (s_mem HS (heads v) child_tag))) (fun is_head =>
  if is_head then del_head child_tag else vret tt)))).

(** versions.py:34-63, [add]. *)
Definition add (tag : K) (version : list Z) (existing_head : option K) : vm unit :=
  vbind (set_head tag version) (fun _ =>                                            (* 35 *)
  vbind (on_tree (tr_add TR tag existing_head)) (fun _ =>                           (* 36 *)
  match existing_head with
  | None => vret tt
  | Some h =>
    vbind (look (fun v => tr_get_split TR (tree v) h)) (fun sp =>                   (* 40 *)
    vbind (if teq (fst sp) h then vret tt else                                      (* 45 *)
           vbind (look (fun v => retrieve_using_path v (snd sp))) (fun split_version =>  (* 46 *)
           vbind (look (fun _ => make_changeset version split_version)) (fun cs =>  (* 50 *)
           vbind (add_edge tag (fst sp) cs) (fun _ =>                               (* 47 *)
           on_tree (tr_change_parent TR (fst sp) tag))))) (fun _ =>                 (* 52 *)
    vbind (look (fun v => s_get HS (heads v) h)) (fun head_version =>               (* 56 *)
    vbind (look (fun _ => make_changeset version head_version)) (fun cs =>          (* 60 *)
    add_edge tag h cs))))                                                           (* 57 *)
  end)).

(** the state an [add] leaves behind, and what it returns or raises *)
Definition add_state (v : vstate) (a : K * list Z * option K) : vstate :=
  let '(tag, version, head) := a in fst (snd (add tag version head v)).
Definition add_result (v : vstate) (a : K * list Z * option K) : res unit :=
  let '(tag, version, head) := a in snd (snd (add tag version head v)).
(** the states at which an [add] can be interrupted *)
Definition add_trace (v : vstate) (a : K * list Z * option K) : list vstate :=
  let '(tag, version, head) := a in fst (add tag version head v).

Definition run (v : vstate) (adds : list (K * list Z * option K)) : vstate :=
  fold_left add_state adds v.
End Versions.
Arguments heads {K HS DS TR}. Arguments diffs {K HS DS TR}. Arguments tree {K HS DS TR}.
Arguments mkV {K HS DS TR}. Arguments v_empty {K HS DS TR}.
