(** C80: what the readers make of any bytes whatever, not only of what the writers
    wrote.  [is_byte], [u64], [patch_fits] and [trimmed] are in SpecSerialize. *)
From Coq Require Import ZArith.
From Verif Require Import Base Changesets Serialize SpecSerialize StreamsProofs.
Local Open Scope Z_scope.

(** Reading ends, without an exception or with the RuntimeError for a stream that is
    too short.  What was read is a patch that can be written and has no
    idle items; written again it takes no more bytes and is read as the same patch. *)
Theorem C80_any_stream : forall s, Forall is_byte s -> exists items e, deserialize_changeset s = (items, e) /\
  (e = None \/ e = Some StreamError) /\ patch_fits items /\ trimmed items = items /\
  (e = None -> exists s', serialize_changeset items = Ok s' /\ (length s' <= length s)%nat /\
     deserialize_changeset s' = (items, None)).
Proof. exact any_stream. Qed.
(** The same for one number: at most nine bytes are taken, the rest is left alone. *)
Theorem C80_any_int : forall s, Forall is_byte s -> vdeserialize_int s = Err StreamError \/
  exists b v rest, s = b ++ rest /\ vdeserialize_int s = Ok (v, rest) /\ u64 v /\ (1 <= length b <= 9)%nat /\
    exists c, vserialize_int v = Ok c /\ (length c <= length b)%nat.
Proof. exact any_int. Qed.
Print Assumptions C80_any_stream.
Print Assumptions C80_any_int.

(** The number 2 written in four bytes, and an idle slice: both are read, and written
    again in fewer bytes. *)
Example C80_example : Forall is_byte [0; 250; 0; 0; 2; 4; 2; 97; 98] /\
  deserialize_changeset [0; 250; 0; 0; 2; 4; 2; 97; 98] = ([PSlice (2%nat, Some 4%nat); PData [97; 98]], None) /\
  serialize_changeset [PSlice (2%nat, Some 4%nat); PData [97; 98]] = Ok [0; 2; 4; 2; 97; 98] /\
  deserialize_changeset [0; 5; 5; 250; 0; 0; 2; 97; 98] = ([PData [97; 98]], None) /\
  vdeserialize_int [250; 0; 0; 2; 9] = Ok (2, [9]).
Proof. split; [repeat constructor; easy|]. vm_compute; auto. Qed.
(** A length that promises more than there is. *)
Example C80_short_example :
  deserialize_changeset [0; 1; 3; 250; 255; 255; 255; 97] = ([PSlice (1%nat, Some 3%nat)], Some StreamError) /\
  vdeserialize_int [255; 1; 2] = Err StreamError.
Proof. vm_compute; auto. Qed.
