(** C26-C30: serialization. *)
From Verif Require Import Base Changesets Serialize SpecSerialize SerializeProofs.
Local Open Scope Z_scope.

(** C26: variable-length integers round-trip; anything else overflows. *)
Theorem C26_vint_round_trip : forall v, u64 v -> exists b, vserialize_int v = Ok b /\
  forall rest, vdeserialize_int (b ++ rest) = Ok (v, rest).
Proof. exact vround_trip. Qed.
Theorem C26_vint_overflow : forall v, ~ u64 v -> vserialize_int v = Err OverflowError.
Proof. exact vserialize_bad. Qed.

(** C27: one to nine bytes, prefix-free, ordered, length monotone. *)
Theorem C27_vint_shape : forall v, u64 v ->
  exists b, vserialize_int v = Ok b /\ (1 <= length b <= 9)%nat /\ Forall is_byte b.
Proof. exact vserialize_shape. Qed.
Theorem C27_vint_prefix_free : forall v w a b x y, vserialize_int v = Ok a -> vserialize_int w = Ok b ->
  a ++ x = b ++ y -> v = w /\ a = b /\ x = y.
Proof. exact vserialize_prefix_free. Qed.
Theorem C27_vint_order : forall v w a b, vserialize_int v = Ok a -> vserialize_int w = Ok b ->
  v < w -> lex_lt a b /\ (length a <= length b)%nat.
Proof. exact vserialize_order. Qed.

(** C28: patches survive serialization, up to items without effect. *)
Theorem C28_patch_round_trip : forall p, patch_fits p -> exists s, serialize_changeset p = Ok s /\
  deserialize_changeset s = (trimmed p, None).
Proof. exact patch_round_trip. Qed.
Theorem C28_trimmed_same_effect : forall p (version : list Z), apply (trimmed p) version = apply p version.
Proof. exact trimmed_apply. Qed.
Theorem C28_patch_rejected : forall p, ~ patch_fits p ->
  exists e, serialize_changeset p = Err e /\ (e = OverflowError \/ e = TypeError).
Proof. exact patch_unserializable. Qed.
(** In particular every patch the library makes from byte strings comes back
    unchanged and does its job. *)
Theorem C28_made_patches : forall o m : list Z,
  Z.of_nat (length o) < 2 ^ 64 -> Z.of_nat (length m) < 2 ^ 64 ->
  exists c, find_changeset o m = Ok c /\
    (exists s, serialize_changeset (strip_forward (as_change_stream c)) = Ok s /\
       deserialize_changeset s = (strip_forward (as_change_stream c), None) /\
       apply (fst (deserialize_changeset s)) o = m) /\
    (exists s, serialize_changeset (strip_reverse (as_change_stream c)) = Ok s /\
       deserialize_changeset s = (strip_reverse (as_change_stream c), None) /\
       apply (fst (deserialize_changeset s)) m = o).
Proof. exact made_patch_round_trip. Qed.

(** C29: a truncated stream yields a prefix of the items and then stops or
    raises the end-of-stream RuntimeError. *)
Theorem C29_truncation : forall p s, serialize_changeset p = Ok s -> forall n, exists items e,
  deserialize_changeset (firstn n s) = (items, e) /\ prefix items (trimmed p) /\
  (e = None \/ e = Some StreamError).
Proof. exact truncated_patch. Qed.

(** C30: fixed-width integers. *)
Theorem C30_int_round_trip : forall v rest, 0 <= v < 2 ^ 32 ->
  exists b, serialize_int v = Ok b /\ length b = 4%nat /\ deserialize_int (b ++ rest) = Ok (v, rest).
Proof. exact fixed_round_trip. Qed.
Theorem C30_int_overflow : forall v, ~ (0 <= v < 2 ^ 32) -> serialize_int v = Err OverflowError.
Proof. exact fixed_overflow. Qed.
Theorem C30_int_short : forall s, (length s < 4)%nat -> deserialize_int s = Err StreamError.
Proof. exact fixed_short. Qed.

Print Assumptions C26_vint_round_trip.
Print Assumptions C26_vint_overflow.
Print Assumptions C27_vint_shape.
Print Assumptions C27_vint_prefix_free.
Print Assumptions C27_vint_order.
Print Assumptions C28_patch_round_trip.
Print Assumptions C28_trimmed_same_effect.
Print Assumptions C28_patch_rejected.
Print Assumptions C28_made_patches.
Print Assumptions C29_truncation.
Print Assumptions C30_int_round_trip.
Print Assumptions C30_int_overflow.
Print Assumptions C30_int_short.

(** Concrete cases. *)
Example C26_example : vserialize_int 2287 = Ok [248; 255] /\ vdeserialize_int ([248; 255] ++ [7]) = Ok (2287, [7]) /\
  vserialize_int 18446744073709551615 = Ok [255; 255; 255; 255; 255; 255; 255; 255; 255] /\
  vserialize_int 18446744073709551616 = Err OverflowError /\ vserialize_int (-1) = Err OverflowError.
Proof. vm_compute; auto. Qed.
Example C27_example : vserialize_int 67823 = Ok [249; 255; 255] /\ vserialize_int 67824 = Ok [250; 1; 8; 240].
Proof. vm_compute; auto. Qed.
Example C28_example :
  serialize_changeset [PSlice (1%nat, Some 2%nat); PSlice (3%nat, Some 3%nat); PData [97; 98]] =
    Ok [0; 1; 2; 0; 3; 3; 2; 97; 98] /\
  deserialize_changeset [0; 1; 2; 0; 3; 3; 2; 97; 98] = ([PSlice (1%nat, Some 2%nat); PData [97; 98]], None).
Proof. vm_compute; auto. Qed.
Example C28_fits_example : patch_fits [PSlice (1%nat, Some 2%nat); PData [97; 98]].
Proof. repeat constructor; unfold u64; cbn; lia. Qed.
Example C28_made_example : Z.of_nat (length [1; 2; 3]) < 2 ^ 64.
Proof. cbn; lia. Qed.
Example C29_example : deserialize_changeset (firstn 8 [0; 1; 2; 0; 3; 3; 2; 97; 98])
  = ([PSlice (1%nat, Some 2%nat)], Some StreamError).
Proof. vm_compute; reflexivity. Qed.
Example C30_example : serialize_int 258 = Ok [0; 0; 1; 2] /\ deserialize_int [0; 0; 1; 2; 9] = Ok (258, [9]).
Proof. vm_compute; auto. Qed.
