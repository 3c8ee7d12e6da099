(** Model of /repo/src/gaspra/versions.py for calls that run at the same time, in threads
    or processes that share the stores and the tree: [add] (34-63) and [get] (116-124) as
    programs made of steps.

    One step is one call of a method of a store or of the tree (an item read, set, deleted
    or looked for; [path_to], [add], [get_split], [change_parent]), with the computations
    up to the next one.  That such a call is not interrupted is assumed: dicts and the
    methods of MemoryTree have no locks, and some methods of DBTree use more than one
    transaction, so what is refuted here is refuted all the more for them.
    Versions.v has the same functions run in one go. *)
From Verif Require Import Base Tree Changesets Serialize Tokenizers Versions.

Section Concurrent.
Context {K : Type} {E : Teq K}.
Variable re_w : Z -> bool.
Variable tk : tkind.
Variables HS DS : store K.
Variable TR : tree_impl K.
Notation vstate := (@vstate K HS DS TR).

(** a step changes the shared state and goes on, depending on what it saw *)
Inductive prog (A : Type) : Type :=
| Ret (r : res A)
| Step (f : vstate -> vstate) (k : vstate -> prog A).
Arguments Ret {A}. Arguments Step {A}.
Fixpoint pbind {A B} (p : prog A) (g : A -> prog B) : prog B :=
  match p with
  | Ret (Ok a) => g a
  | Ret (Err e) => Ret (Err e)
  | Step f k => Step f (fun v => pbind (k v) g)
  end.
(** one step: one of the calls modelled in Versions.v *)
Definition atom {A} (m : vm HS DS TR A) : prog A :=
  Step (fun v => fst (snd (m v))) (fun v => Ret (snd (snd (m v)))).

Notation look := (look HS DS TR).
Notation on_tree := (on_tree HS DS TR).

(** versions.py:94-114, [_retrieve_using_path] *)
Fixpoint retrieve_loop_p (st : tstate) (toks : list Z) (path : list K) : prog (list Z) :=
  match path with
  | [] => Ret (let* c := decode tk st toks in Ok (raw c))                          (* 114 *)
  | tag :: path =>
    pbind (atom (look (fun v => s_get DS (diffs v) tag))) (fun d =>                (* 107 *)
    let '(items, stop) := deserialize_changeset d in
    let '(st, r) := encode_items re_w tk st items in
    match r with
    | Err e => Ret (Err e)
    | Ok patch =>
      match stop with
      | Some e => Ret (Err e)
      | None => retrieve_loop_p st (apply patch toks) path
      end
    end)
  end.
Definition retrieve_p (path : list K) : prog (list Z) :=
  match path with
  | [] => Ret (Err IndexError)
  | root :: path =>
    pbind (atom (look (fun v => s_get HS (heads v) root))) (fun patched =>         (* 102 *)
    let '(st, r) := encode re_w tk new_tokenizer (CBytes patched) in
    match r with Err e => Ret (Err e) | Ok toks => retrieve_loop_p st toks path end)
  end.

(** versions.py:116-124, [get] *)
Definition get_p (tag : K) : prog (option (list Z)) :=
  pbind (atom (look (fun v => tr_path_to TR (tree v) tag))) (fun p =>              (* 120 *)
  match p with
  | None | Some [] => Ret (Ok None)
  | Some path => pbind (retrieve_p path) (fun r => Ret (Ok (Some r)))              (* 122 *)
  end).

(** versions.py:81-92, [_add_edge] *)
Definition add_edge_p (parent_tag child_tag : K) (changeset : list (pitem Z)) : prog unit :=
  pbind (Ret (serialize_changeset changeset)) (fun d =>
  pbind (atom (set_diff HS DS TR child_tag d)) (fun _ =>                           (* 82 *)
  pbind (atom (on_tree (tr_change_parent TR child_tag parent_tag))) (fun _ =>      (* 87 *)
  pbind (atom (look (fun v => Ok (s_mem HS (heads v) child_tag)))) (fun is_head => (* 91 *)
  if is_head then atom (del_head HS DS TR child_tag) else Ret (Ok tt))))).         (* 92 *)
(** versions.py:45-52, the split is moved below the new tag *)
Definition move_p (tag : K) (version : list Z) (sp : K * list K) : prog unit :=
  pbind (retrieve_p (snd sp)) (fun split_version =>                                (* 46 *)
  pbind (Ret (make_changeset re_w tk version split_version)) (fun cs =>            (* 50 *)
  pbind (add_edge_p tag (fst sp) cs) (fun _ =>                                     (* 47 *)
  atom (on_tree (tr_change_parent TR (fst sp) tag))))).                            (* 52 *)
(** versions.py:55-61, and the old head too *)
Definition last_p (tag : K) (version : list Z) (h : K) : prog unit :=
  pbind (atom (look (fun v => s_get HS (heads v) h))) (fun head_version =>         (* 56 *)
  pbind (Ret (make_changeset re_w tk version head_version)) (fun cs =>             (* 60 *)
  add_edge_p tag h cs)).                                                           (* 57 *)
Definition split_p (tag : K) (version : list Z) (h : K) : prog unit :=
  pbind (atom (look (fun v => tr_get_split TR (tree v) h))) (fun sp =>             (* 40 *)
  pbind (if teq (fst sp) h then Ret (Ok tt) else move_p tag version sp) (fun _ =>  (* 45 *)
  last_p tag version h)).
(** versions.py:34-63, [add] *)
Definition add_p (tag : K) (version : list Z) (existing_head : option K) : prog unit :=
  pbind (atom (set_head HS DS TR tag version)) (fun _ =>                           (* 35 *)
  pbind (atom (on_tree (tr_add TR tag existing_head))) (fun _ =>                   (* 36 *)
  match existing_head with
  | None => Ret (Ok tt)
  | Some h => split_p tag version h
  end)).

(** a program that runs alone *)
Fixpoint alone {A} (p : prog A) (v : vstate) : vstate * res A :=
  match p with Ret r => (v, r) | Step f k => alone (k v) (f v) end.

(** * Calls at the same time *)
Inductive call := Add (a : K * list Z * option K) | Get (tag : K).
Inductive answer := Added | Found (b : option (list Z)).
Definition start (c : call) : prog answer :=
  match c with
  | Add (tag, version, head) => pbind (add_p tag version head) (fun _ => Ret (Ok Added))
  | Get tag => pbind (get_p tag) (fun b => Ret (Ok (Found b)))
  end.
(** the shared state, and what each call still has to do *)
Definition config : Type := vstate * list (prog answer).
Fixpoint put {A} (i : nat) (x : A) (l : list A) : list A :=
  match l, i with
  | [], _ => []
  | _ :: l, 0 => x :: l
  | y :: l, S i => y :: put i x l
  end.
(** any of the calls makes its next step *)
Inductive move : config -> config -> Prop :=
| move_at v ps i f k : nth_error ps i = Some (Step f k) -> move (v, ps) (f v, put i (k v) ps).
Inductive moves : config -> config -> Prop :=
| moves_none c : moves c c
| moves_more c c' c'' : moves c c' -> move c' c'' -> moves c c''.
Definition returned (p : prog answer) : Prop := match p with Ret _ => True | Step _ _ => False end.

(** the calls make their steps in the given order *)
Definition turn (i : nat) (c : config) : config :=
  match nth_error (snd c) i with
  | Some (Step f k) => (f (fst c), put i (k (fst c)) (snd c))
  | _ => c
  end.
Definition turns (order : list nat) (c : config) : config := fold_left (fun c i => turn i c) order c.
End Concurrent.
Arguments Ret {K HS DS TR A}. Arguments Step {K HS DS TR A}.
Arguments Add {K}. Arguments Get {K}.
