(** Specification vocabulary for manifests: the strings that JSON can carry, what
    a manifest looks like when it is read back, and histories of manifests. *)
From Coq Require Import ZArith.
From Verif Require Import Base Tokenizers SpecTokenizers Json Manifest SpecVersions.
Local Open Scope Z_scope.

(** * Strings *)
Definition chars (s : list Z) : Prop := Forall (fun c => 0 <= c <= 1114111) s.
Definition high (u : Z) : Prop := 55296 <= u <= 56319.
Definition low (u : Z) : Prop := 56320 <= u <= 57343.
(** a Python str may hold surrogates as characters of their own; here a high one
    stands directly before a low one *)
Definition has_pair (s : list Z) : Prop :=
  exists a u w b, s = a ++ u :: w :: b /\ high u /\ low w.
Definition text (s : list Z) : Prop := chars s /\ ~ has_pair s.

(** every such pair read as one character, from left to right *)
Inductive rejoined : list Z -> list Z -> Prop :=
| rejoined_nil : rejoined [] []
| rejoined_pair u w s t : high u -> low w -> rejoined s t ->
    rejoined (u :: w :: s) (65536 + (u - 55296) * 1024 + (w - 56320) :: t)
| rejoined_char c s t : ~ (high c /\ exists w r, s = w :: r /\ low w) ->
    rejoined s t -> rejoined (c :: s) (c :: t).

(** * Manifests *)
Definition name_ok (k : tag) : Prop := exists s, k = TStr s /\ text s.
Definition tag_ok (t : tag) : Prop := match t with TStr s => text s | TInt _ => True end.
(** a manifest whose names are texts and whose tags are texts or ints; a dict has
    every key once *)
Definition manifest_ok (m : manifest) : Prop :=
  NoDup (dkeys m) /\ forall k t, In (k, t) m -> name_ok k /\ tag_ok t.

(** the dict that equals the manifest *)
Definition str_of (k : tag) : list Z := match k with TStr s => s | TInt _ => [] end.
Definition json_of (t : tag) : json := match t with TStr s => JStr s | TInt n => JInt n end.
Definition as_dict (m : manifest) : json := JObj (map (fun e => (str_of (fst e), json_of (snd e))) m).

(** * Histories.  A call of [add_manifest]: *)
Record mcall := mkCall {
  mc_tag : tag;
  mc_files : manifest;
  mc_contents : dict tag (list Z);
  mc_base : option tag
}.

(** the tag names a file version in one of the calls *)
Definition file_tag (calls : list mcall) (t : tag) : Prop :=
  exists c, In c calls /\ In t (dvalues (mc_files c)).

(** Calls as an application makes them: manifests have tags of their own, they are
    based on manifests, a tag stands for the same contents in every call. *)
Record proper (k : tkind) (content : tag -> list Z) (calls : list mcall) : Prop := {
  p_tags : NoDup (map mc_tag calls);
  p_apart : forall c, In c calls -> ~ file_tag calls (mc_tag c);
  p_base : forall c b, In c calls -> mc_base c = Some b -> b <> mc_tag c /\ ~ file_tag calls b;
  p_files : forall c, In c calls -> manifest_ok (mc_files c);
  p_size : forall c doc, In c calls -> manifest_to_doc (mc_files c) = Ok doc ->
             Z.of_nat (length doc) < 2 ^ 63;
  p_contents : forall c t b, In c calls -> dget (mc_contents c) t = Some b ->
             b = content t /\ storable k b
}.

(** Calls in a row, each based on the one before.  Against its base a manifest may
    drop files and replace versions by new ones, distinct from each other. *)
Definition replaces (calls : list mcall) (prev c : mcall) : Prop :=
  mc_base c = Some (mc_tag prev) /\
  NoDup (dvalues (mc_files c)) /\
  forall name t, In (name, t) (mc_files c) ->
    In name (dkeys (mc_files prev)) /\
    (In (name, t) (mc_files prev) \/
     ~ file_tag calls t /\ dget (mc_contents c) t <> None).
Inductive chain : list mcall -> Prop :=
| chain_one c : mc_base c = None -> NoDup (dvalues (mc_files c)) ->
    (forall t, In t (dvalues (mc_files c)) -> dget (mc_contents c) t <> None) -> chain [c]
| chain_next calls prev c : chain (calls ++ [prev]) -> replaces (calls ++ [prev]) prev c ->
    chain (calls ++ [prev; c]).

(** Running the calls: the state afterwards, and what each of them did. *)
Section Runs.
Variable re_w : Z -> bool.
Variable tk : tkind.
Variables HS DS : Versions.store tag.
Variable TR : Versions.tree_impl tag.
Notation vstate := (@Versions.vstate tag HS DS TR).
Definition do_call (v : vstate) (c : mcall) : vstate * res unit :=
  snd (add_manifest re_w tk HS DS TR (mc_tag c) (mc_files c) (mc_contents c) (mc_base c) v).
Definition after_calls (v : vstate) (calls : list mcall) : vstate :=
  fold_left (fun v c => fst (do_call v c)) calls v.
Fixpoint outcomes (v : vstate) (calls : list mcall) : list (res unit) :=
  match calls with
  | [] => []
  | c :: calls => snd (do_call v c) :: outcomes (fst (do_call v c)) calls
  end.
End Runs.
