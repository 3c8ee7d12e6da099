(** What a tree should hold after some calls of the Tree protocol: for every tag the
    parent it was last moved to and the base it was added with.  Nothing else is kept, in
    particular no children and no metrics. *)
From Verif Require Import Base Tree Versions SpecDb.

Section SpecForest.
Context {K : Type} {E : Teq K}.

(** parent and base of every tag *)
Definition forest := dict K (option K * option K).
(** from a tag to its root *)
Inductive ancestors (f : forest) : K -> list K -> Prop :=
| anc_root t b : dget f t = Some (None, b) -> ancestors f t [t]
| anc_step t q b l : dget f t = Some (Some q, b) -> ancestors f q l -> ancestors f t (t :: l).

(** [None] when the call should raise: a tag is added twice or is not known *)
Definition told (f : forest) (c : tree_call K) : option forest :=
  match c with
  | CallAdd k b => match dget f k with Some _ => None | None => Some (dset f k (None, b)) end
  | CallMove k q =>
    match dget f k, dget f q with
    | Some (_, b), Some _ => Some (dset f k (Some q, b))
    | _, _ => None
    end
  end.
Definition told_all (l : list (tree_call K)) : forest :=
  fold_left (fun f c => match told f c with Some f' => f' | None => f end) l [].
(** no tag is moved below itself *)
Definition sound (f : forest) (c : tree_call K) : Prop :=
  match c with
  | CallAdd _ _ => True
  | CallMove k q => dget f k <> None -> forall l, ancestors f q l -> ~ In k l
  end.
(** only new tags are added, and tags are moved to known ones *)
Definition plain (f : forest) (c : tree_call K) : Prop :=
  match c with
  | CallAdd k _ => dget f k = None
  | CallMove k q => dget f k <> None -> dget f q <> None
  end.
Definition tree_result (TR : tree_impl K) (t : tree_t TR) (c : tree_call K) : tree_t TR * res unit :=
  match c with
  | CallAdd k b => tr_add TR k b t
  | CallMove k q => tr_change_parent TR k q t
  end.
(** After calls that are sound and satisfy [P] the tree has the tags, bases and paths it
    was told, and such a call either succeeds, or raises and changes nothing. *)
Definition does_as_told (TR : tree_impl K) (P : forest -> tree_call K -> Prop) : Prop :=
  forall l, (forall pre c post, l = pre ++ c :: post -> sound (told_all pre) c /\ P (told_all pre) c) ->
  let t := tree_run TR l in
  let f := told_all l in
  (forall k, tr_contains TR t k = dmem f k) /\
  (forall k p b, dget f k = Some (p, b) ->
     tr_base TR t k = Ok b /\ exists up, ancestors f k up /\ tr_path_to TR t k = Ok (Some (rev up))) /\
  (forall c, sound f c -> P f c ->
     match told f c with
     | Some _ => snd (tree_result TR t c) = Ok tt
     | None => exists e, e <> OutOfFuel /\ tree_result TR t c = (t, Err e)
     end).
End SpecForest.
Arguments forest : clear implicits.
