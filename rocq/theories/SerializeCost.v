(** Copies of the functions of /repo/src/gaspra/serialize.py that count the bytes they
    copy: a slice of a bytes object copies its elements, and so does [+=] with both sides
    of it.  A slice of everything and a concatenation with the empty object copy nothing.
    The small objects made inside of vserialize_int (at most nine bytes) are not counted. *)
From Verif Require Import Base Changesets Serialize.
Local Open Scope Z_scope.

(** serialize.py:40-60, [vdeserialize_int] *)
Definition vdeserialize_int_n (stream : list Z) : nat * res (Z * list Z) :=
  if (length stream <? 1)%nat then (0%nat, Err StreamError)
  else
    let a0 := from_bytes (firstn 1 stream) in
    if (0 <=? a0) && (a0 <=? 240) then ((1 + length (skipn 1 stream))%nat, Ok (a0, skipn 1 stream))
    else if (241 <=? a0) && (a0 <=? 248) then
      let s1 := pyslice stream 1 (Some 2%nat) in
      if (length stream <? 2)%nat then ((1 + length s1)%nat, Err StreamError)
      else ((1 + length s1 + length (skipn 2 stream))%nat, Ok (240 + 256 * (a0 - 241) + from_bytes s1, skipn 2 stream))
    else if a0 =? 249 then
      if (length stream <? 3)%nat then (1%nat, Err StreamError)
      else
        let s1 := pyslice stream 1 (Some 3%nat) in
        ((1 + length s1 + length (skipn 3 stream))%nat, Ok (2288 + from_bytes s1, skipn 3 stream))
    else
      let end_ := Z.to_nat (a0 - 246) in
      if (length stream <? end_)%nat then (1%nat, Err StreamError)
      else
        let s1 := pyslice stream 1 (Some end_) in
        ((1 + length s1 + length (skipn end_ stream))%nat, Ok (from_bytes s1, skipn end_ stream)).

(** serialize.py:106-123, [deserialize_changeset] *)
Fixpoint deserialize_loop_n (fuel : nat) (next_is_bytes : bool) (stream : list Z)
  : nat * (list (pitem Z) * option exn) :=
  match stream with
  | [] => (0%nat, ([], None))
  | _ =>
    match fuel with
    | O => (0%nat, ([], Some OutOfFuel))
    | S fuel' =>
      if next_is_bytes then
        match vdeserialize_int_n stream with
        | (n, Err e) => (n, ([], Some e))
        | (n, Ok (len, stream1)) =>
          if len =? 0 then
            let '(m, r) := deserialize_loop_n fuel' false stream1 in ((n + m)%nat, r)
          else if Z.of_nat (length stream1) <? len then (n, ([], Some StreamError))
          else
            let piece := firstn (Z.to_nat len) stream1 in
            let stream2 := skipn (Z.to_nat len) stream1 in
            let '(m, (items, e)) := deserialize_loop_n fuel' false stream2 in
            ((n + length piece + length stream2 + m)%nat, (PData piece :: items, e))
        end
      else
        match vdeserialize_int_n stream with
        | (n1, Err e) => (n1, ([], Some e))
        | (n1, Ok (start, stream1)) =>
          match vdeserialize_int_n stream1 with
          | (n2, Err e) => ((n1 + n2)%nat, ([], Some e))
          | (n2, Ok (stop, stream2)) =>
            let '(m, (items, e)) := deserialize_loop_n fuel' true stream2 in
            ((n1 + n2 + m)%nat,
             if start =? stop then (items, e)
             else (PSlice (Z.to_nat start, Some (Z.to_nat stop)) :: items, e))
          end
        end
    end
  end.
Definition deserialize_changeset_n (stream : list Z) : nat * (list (pitem Z) * option exn) :=
  deserialize_loop_n (length stream) true stream.

(** serialize.py:75-103, [serialize_changeset]; [size] bytes have been serialized. *)
Definition append_n (size : nat) (x : list Z) : nat :=
  match size, x with O, _ => 0 | _, [] => 0 | _, _ => (size + length x)%nat end.
Fixpoint serialize_loop_n (size : nat) (next_is_bytes : bool) (changeset : list (pitem Z)) : nat * res (list Z) :=
  match changeset with
  | [] => (0%nat, Ok [])
  | change :: changeset' =>
    let pad :=
      match change, next_is_bytes with
      | PSlice _, true => let* a := vserialize_int 0 in Ok (append_n size a, a)
      | PData _, false =>
        let* a := vserialize_int 0 in
        let* b := vserialize_int 0 in
        Ok ((append_n size a + append_n (size + length a) b)%nat, a ++ b)
      | _, _ => Ok (0%nat, [])
      end in
    match pad with
    | Err e => (0%nat, Err e)
    | Ok (n0, pad) =>
      let size := (size + length pad)%nat in
      match change with
      | PData d =>
        match vserialize_int (Z.of_nat (length d)) with
        | Err e => (n0, Err e)
        | Ok n =>
          let '(m, rest) := serialize_loop_n (size + length n + length d) false changeset' in
          ((n0 + append_n size n + append_n (size + length n) d + m)%nat, let* rest := rest in Ok (pad ++ n ++ d ++ rest))
        end
      | PSlice (start, stop) =>
        match vserialize_int (Z.of_nat start) with
        | Err e => (n0, Err e)
        | Ok a =>
          match vserialize_bound stop with
          | Err e => ((n0 + append_n size a)%nat, Err e)
          | Ok b =>
            let '(m, rest) := serialize_loop_n (size + length a + length b) true changeset' in
            ((n0 + append_n size a + append_n (size + length a) b + m)%nat, let* rest := rest in Ok (pad ++ a ++ b ++ rest))
          end
        end
      end
    end
  end.
Definition serialize_changeset_n (changeset : list (pitem Z)) : nat * res (list Z) :=
  serialize_loop_n 0 true changeset.
