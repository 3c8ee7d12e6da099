(** Model of /repo/src/gaspra/manifest.py.  The tags of a manifest are hashable
    objects that [json.dumps] accepts; the model has strings and ints (bool, None
    and float are left out). *)
From Coq Require Import ZArith.
From Verif Require Import Base Tokenizers Json Versions.
Local Open Scope Z_scope.

Inductive tag := TStr (s : list Z) | TInt (n : Z).
#[export] Instance Teq_tag : Teq tag := fun a b =>
  match a, b with
  | TStr s, TStr t => teq s t
  | TInt n, TInt m => n =? m
  | _, _ => false
  end.

(** manifest.py:6 *)
Definition manifest := dict tag tag.

(** manifest.py:43-44, [manifest_to_doc]; a key that is an int is written as the
    string of its digits. *)
Definition dump_value (t : tag) : list Z :=
  match t with TStr s => dump_str s | TInt n => dump_int n end.
Definition dump_key (t : tag) : list Z :=
  match t with TStr s => dump_str s | TInt n => dump_str (dump_int n) end.
Definition dump_item (e : tag * tag) : list Z := dump_key (fst e) ++ [58] ++ dump_value (snd e).
Definition dumps (m : manifest) : list Z :=
  [123] ++ join_with [44; 10] (map dump_item m) ++ [125].
Definition manifest_to_doc (m : manifest) : res (list Z) := utf8_encode (dumps m).

(** manifest.py:47-48, [doc_to_manifest] *)
Definition doc_to_manifest (doc : list Z) : res json :=
  match utf8_decode doc with Some s => loads s | None => Err UnicodeDecodeError end.

Section Manifest.
Variable re_w : Z -> bool.
Variable tk : tkind.
Variables HS DS : store tag.
Variable TR : tree_impl tag.
Notation vm := (vm HS DS TR).
Notation vstate := (@vstate tag HS DS TR).
Notation vbind := (vbind HS DS TR).
Notation vret := (vret HS DS TR).
Notation look := (look HS DS TR).
Notation add := (add re_w tk HS DS TR).
Notation get := (get re_w tk HS DS TR).
Notation contains := (contains HS DS TR).

(** manifest.py:16-20.  A document [null] loads as None, like no base manifest. *)
Definition base_manifest (v : vstate) (base_tag : option tag) : res (option json) :=
  match base_tag with
  | None => Ok None
  | Some b =>
    let* doc := get v b in
    match doc with
    | None => Ok None
    | Some doc => let* j := doc_to_manifest doc in
                  Ok (match j with JNull => None | _ => Some j end)
    end
  end.

(** manifest.py:27, [base_manifest[name] if base_manifest is not None else None].
    The keys of a loaded dict are strings.  Subscripting anything but a dict with a
    string raises TypeError.  A value that is not a string, an int or null is
    not modelled as a tag; TypeError stands for it. *)
Definition base_of_file (bm : option json) (name : tag) : res (option tag) :=
  match bm with
  | None => Ok None
  | Some (JObj d) =>
    match (match name with TStr s => dget d s | TInt _ => None end) with
    | None => Err KeyError
    | Some (JStr s) => Ok (Some (TStr s))
    | Some (JInt n) => Ok (Some (TInt n))
    | Some JNull => Ok None
    | Some _ => Err TypeError
    end
  | Some _ => Err TypeError
  end.

(** manifest.py:22-28, the loop over the files *)
Fixpoint add_files (m : manifest) (contents : dict tag (list Z)) (bm : option json) : vm unit :=
  match m with
  | [] => vret tt
  | (name, t) :: m =>
    vbind (look (fun v => Ok (contains v t))) (fun known =>
    vbind (if known then vret tt else
           vbind (look (fun _ => match dget contents t with Some b => Ok b | None => Err KeyError end)) (fun b =>
           vbind (look (fun _ => base_of_file bm name)) (fun base =>
           add t b base))) (fun _ =>
    add_files m contents bm))
  end.

(** manifest.py:9-35, [add_manifest] *)
Definition add_manifest (manifest_tag : tag) (m : manifest) (contents : dict tag (list Z))
  (base_tag : option tag) : vm unit :=
  vbind (look (fun v => base_manifest v base_tag)) (fun bm =>
  vbind (add_files m contents bm) (fun _ =>
  vbind (look (fun _ => manifest_to_doc m)) (fun doc =>
  add manifest_tag doc base_tag))).

(** manifest.py:38-40, [get_manifest]; [None.decode] is an AttributeError *)
Definition get_manifest (v : vstate) (t : tag) : res json :=
  let* doc := get v t in
  match doc with None => Err AttributeError | Some doc => doc_to_manifest doc end.
End Manifest.
