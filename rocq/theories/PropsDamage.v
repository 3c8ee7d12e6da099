(** Theorem C108: what a version needs of the stores, and what a lost entry does. *)
From Coq Require Import ZArith Lia Ascii.
From Verif Require Import Base Changesets Serialize Tokenizers SpecTokenizers Tree TreeProofs
  Versions SpecVersions VersionsInv DbTree SpecDb DbVersions VersionsDamage PropsVersions PropsFrame.
Local Open Scope nat_scope.

Section Theorems.
Context {K : Type} {E : Teq K} {O : TeqOk K}.
Variable re_w : Z -> bool.
Variable tk : tkind.
Notation D := (dict_store K).
Notation C := (db_store K).
Notation M := (memory_tree K).
Notation T := (db_tree K).

(** C108: the version [t] with the way [r :: q] needs the head entry of [r] and the
    diffs of [q]; whatever happens to all other entries, it is retrieved. *)
Theorem C108_local : forall h t b base r q hs ds, tk <> KLine -> fresh tk h -> In (t, b, base) h ->
  let v := run re_w tk D D M v_empty h in
  m_path_to (tree v) t = Ok (Some (r :: q)) ->
  dget hs r = dget (heads v) r -> (forall u, In u q -> dget ds u = dget (diffs v) u) ->
  get re_w tk D D M (@mkV K D D M hs ds (tree v)) t = Ok (Some b).
Proof. exact (damage_local_memory re_w tk). Qed.
(** Any entries are lost: a version raises KeyError if one of those it needs is among
    them, and has its contents if none is. *)
Theorem C108_lost : forall h t b base r q hs ds, tk <> KLine -> fresh tk h -> In (t, b, base) h ->
  let v := run re_w tk D D M v_empty h in
  m_path_to (tree v) t = Ok (Some (r :: q)) ->
  (forall u, dget hs u = dget (heads v) u \/ dget hs u = None) ->
  (forall u, dget ds u = dget (diffs v) u \/ dget ds u = None) ->
  let w := @mkV K D D M hs ds (tree v) in
  (get re_w tk D D M w t = Err KeyError /\ (dget hs r = None \/ exists u, In u q /\ dget ds u = None)) \/
  (get re_w tk D D M w t = Ok (Some b) /\ dget hs r <> None /\ forall u, In u q -> dget ds u <> None).
Proof. exact (damage_lost_memory re_w tk). Qed.
(** A version needs no more entries than about the square root of eight times the
    number of the versions. *)
Theorem C108_few : forall h t b base, tk <> KLine -> fresh tk h -> In (t, b, base) h ->
  let v := run re_w tk D D M v_empty h in
  exists p, length p * (length p + 2) <= 8 * length h /\
    forall hs ds, (forall u, In u p -> dget hs u = dget (heads v) u /\ dget ds u = dget (diffs v) u) ->
    get re_w tk D D M (@mkV K D D M hs ds (tree v)) t = Ok (Some b).
Proof. exact (damage_few_memory re_w tk). Qed.
(** the same on a database *)
Theorem C108_local_db : forall place1 place2 h t b base r q hs ds, tk <> KLine -> fresh tk h -> In (t, b, base) h ->
  let v := run re_w tk (C place1) (C place2) T v_empty h in
  d_path_to (tree v) t = Ok (Some (r :: q)) ->
  s_get (C place1) hs r = s_get (C place1) (heads v) r ->
  (forall u, In u q -> s_get (C place2) ds u = s_get (C place2) (diffs v) u) ->
  get re_w tk (C place1) (C place2) T (@mkV K (C place1) (C place2) T hs ds (tree v)) t = Ok (Some b).
Proof. exact (damage_local_db re_w tk). Qed.
Theorem C108_lost_db : forall place1 place2 h t b base r q hs ds, tk <> KLine -> fresh tk h -> In (t, b, base) h ->
  let v := run re_w tk (C place1) (C place2) T v_empty h in
  d_path_to (tree v) t = Ok (Some (r :: q)) ->
  (forall u, s_get (C place1) hs u = s_get (C place1) (heads v) u \/ s_get (C place1) hs u = Err KeyError) ->
  (forall u, s_get (C place2) ds u = s_get (C place2) (diffs v) u \/ s_get (C place2) ds u = Err KeyError) ->
  let w := @mkV K (C place1) (C place2) T hs ds (tree v) in
  (get re_w tk (C place1) (C place2) T w t = Err KeyError /\
    (s_get (C place1) hs r = Err KeyError \/ exists u, In u q /\ s_get (C place2) ds u = Err KeyError)) \/
  (get re_w tk (C place1) (C place2) T w t = Ok (Some b) /\
    s_get (C place1) hs r <> Err KeyError /\ forall u, In u q -> s_get (C place2) ds u <> Err KeyError).
Proof. exact (damage_lost_db re_w tk). Qed.
End Theorems.

(** * Examples *)
(** Four versions of a file and one of another: without the diff of version 3 the
    versions 1 and 3 are gone and the others are not; without the head 9 only version 9 is gone. *)
Definition lose (u : nat) (d : dict nat (list Z)) := ddel d u.
Definition wounded (hs ds : list nat) := let v := run0 KNull two_branches in
  @mkV nat (dict_store nat) (dict_store nat) (memory_tree nat)
    (fold_right lose (heads v) hs) (fold_right lose (diffs v) ds) (tree v).
Definition answers v := map (fun t => match get0 KNull v t with
  Ok (Some _) => "b" | Ok None => "n" | Err KeyError => "K" | Err _ => "?" end%char) [1; 2; 3; 4; 9].
Example C108_example : fresh KNull two_branches /\
  m_path_to (tree (run0 KNull two_branches)) 1 = Ok (Some [4; 3; 1]) /\
  answers (wounded [] []) = ["b"; "b"; "b"; "b"; "b"]%char /\
  answers (wounded [] [3]) = ["K"; "b"; "K"; "b"; "b"]%char /\
  answers (wounded [9] []) = ["b"; "b"; "b"; "b"; "K"]%char /\
  answers (wounded [4] [3]) = ["K"; "K"; "K"; "K"; "b"]%char.
Proof.
  assert (V : valid KNull two_branches) by (unfold two_branches, line_history; cbn [app]; valid_tac; head_tac).
  split; [apply V|]. repeat split; vm_compute; reflexivity.
Qed.
(** An entry that is changed and not lost goes unnoticed: there are no checksums. *)
Example C108_changed : let v := run0 KNull two_branches in
  let w := @mkV nat (dict_store nat) (dict_store nat) (memory_tree nat)
    (dset (heads v) 4 [65; 66; 67; 68; 69; 70; 71; 72]%Z) (diffs v) (tree v) in
  get0 KNull w 2 <> get0 KNull v 2 /\ (exists b, get0 KNull w 2 = Ok (Some b)) /\ get0 KNull w 9 = get0 KNull v 9.
Proof. split; [vm_compute; discriminate|]. split; [eexists; vm_compute; reflexivity|vm_compute; reflexivity]. Qed.

Print Assumptions C108_local.
Print Assumptions C108_lost.
Print Assumptions C108_few.
Print Assumptions C108_local_db.
Print Assumptions C108_lost_db.
