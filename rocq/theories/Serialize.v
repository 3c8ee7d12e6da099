(** Model of /repo/src/gaspra/serialize.py.  A bytes object is a [list Z]; the
    functions below only ever produce elements between 0 and 255 besides the
    data bytes they copy. *)
From Verif Require Import Base Changesets.
Local Open Scope Z_scope.

(** [value.to_bytes(n, "big")]: OverflowError for a negative value or one that
    does not fit in [n] bytes. *)
Fixpoint be (n : nat) (v : Z) : list Z :=
  match n with O => [] | S n' => be n' (v / 256) ++ [v mod 256] end.
Definition to_bytes (n : nat) (v : Z) : res (list Z) :=
  if (0 <=? v) && (v <? 256 ^ Z.of_nat n) then Ok (be n v) else Err OverflowError.
(** [int.from_bytes(s, "big")] *)
Definition from_bytes (s : list Z) : Z := fold_left (fun acc b => acc * 256 + b) s 0.

(** serialize.py:4-37, [vserialize_int].  Lines 10 and 17 divide with [/] and
    truncate with [int]: the operands are below 2**17 and the divisor is a power
    of two, so the float quotient is exact and this is integer division. *)
Definition vserialize_int (value : Z) : res (list Z) :=
  if value <=? 240 then to_bytes 1 value
  else if value <=? 2287 then
    let excess := value - 240 in
    let* a := to_bytes 1 (241 + excess / 256) in
    let* b := to_bytes 1 (excess mod 256) in
    Ok (a ++ b)
  else if value <=? 67823 then
    let excess := value - 2288 in
    let* c := to_bytes 1 249 in
    let* a := to_bytes 1 (excess / 256) in
    let* b := to_bytes 1 (excess mod 256) in
    Ok (c ++ a ++ b)
  else if value <=? 16777215 then
    let* c := to_bytes 1 250 in let* b := to_bytes 3 value in Ok (c ++ b)
  else if value <=? 4294967295 then
    let* c := to_bytes 1 251 in let* b := to_bytes 4 value in Ok (c ++ b)
  else if value <=? 1099511627775 then
    let* c := to_bytes 1 252 in let* b := to_bytes 5 value in Ok (c ++ b)
  else if value <=? 281474976710655 then
    let* c := to_bytes 1 253 in let* b := to_bytes 6 value in Ok (c ++ b)
  else if value <=? 72057594037927935 then
    let* c := to_bytes 1 254 in let* b := to_bytes 7 value in Ok (c ++ b)
  else
    let* c := to_bytes 1 255 in let* b := to_bytes 8 value in Ok (c ++ b).

(** serialize.py:40-60, [vdeserialize_int]. *)
Definition vdeserialize_int (stream : list Z) : res (Z * list Z) :=
  if (length stream <? 1)%nat then Err StreamError
  else
    let a0 := from_bytes (firstn 1 stream) in
    if (0 <=? a0) && (a0 <=? 240) then Ok (a0, skipn 1 stream)
    else if (241 <=? a0) && (a0 <=? 248) then
      let a1 := from_bytes (pyslice stream 1 (Some 2%nat)) in
      if (length stream <? 2)%nat then Err StreamError
      else Ok (240 + 256 * (a0 - 241) + a1, skipn 2 stream)
    else if a0 =? 249 then
      if (length stream <? 3)%nat then Err StreamError
      else Ok (2288 + from_bytes (pyslice stream 1 (Some 3%nat)), skipn 3 stream)
    else
      let end_ := Z.to_nat (a0 - 246) in
      if (length stream <? end_)%nat then Err StreamError
      else Ok (from_bytes (pyslice stream 1 (Some end_)), skipn end_ stream).

(** serialize.py:63-72, [serialize_int], [deserialize_int]. *)
Definition serialize_int (value : Z) : res (list Z) := to_bytes 4 value.
Definition deserialize_int (stream : list Z) : res (Z * list Z) :=
  if (length stream <? 4)%nat then Err StreamError
  else Ok (from_bytes (firstn 4 stream), skipn 4 stream).

(** serialize.py:75-103, [serialize_changeset].  The item type has only bytes
    and slices, so the RuntimeError of line 101 cannot arise; [None] as stop of
    a slice makes the comparison in vserialize_int raise TypeError. *)
Definition vserialize_bound (b : option nat) : res (list Z) :=
  match b with Some n => vserialize_int (Z.of_nat n) | None => Err TypeError end.
Fixpoint serialize_loop (next_is_bytes : bool) (changeset : list (pitem Z)) : res (list Z) :=
  match changeset with
  | [] => Ok []
  | change :: changeset' =>
    let* pad :=
      match change, next_is_bytes with
      | PSlice _, true => vserialize_int 0
      | PData _, false => let* a := vserialize_int 0 in let* b := vserialize_int 0 in Ok (a ++ b)
      | _, _ => Ok []
      end in
    match change with
    | PData d =>
      let* n := vserialize_int (Z.of_nat (length d)) in
      let* rest := serialize_loop false changeset' in
      Ok (pad ++ n ++ d ++ rest)
    | PSlice (start, stop) =>
      let* a := vserialize_int (Z.of_nat start) in
      let* b := vserialize_bound stop in
      let* rest := serialize_loop true changeset' in
      Ok (pad ++ a ++ b ++ rest)
    end
  end.
Definition serialize_changeset (changeset : list (pitem Z)) : res (list Z) :=
  serialize_loop true changeset.

(** serialize.py:106-123, [deserialize_changeset], a generator: the items it
    yields and the exception that ends it, if any.  Each round consumes at least
    one byte, so the length of the stream is enough fuel. *)
Fixpoint deserialize_loop (fuel : nat) (next_is_bytes : bool) (stream : list Z)
  : list (pitem Z) * option exn :=
  match stream with
  | [] => ([], None)
  | _ =>
    match fuel with
    | O => ([], Some OutOfFuel)
    | S fuel' =>
      if next_is_bytes then
        match vdeserialize_int stream with
        | Err e => ([], Some e)
        | Ok (len, stream1) =>
          if len =? 0 then deserialize_loop fuel' false stream1
          else if Z.of_nat (length stream1) <? len then ([], Some StreamError)
          else
            let '(items, e) := deserialize_loop fuel' false (skipn (Z.to_nat len) stream1) in
            (PData (firstn (Z.to_nat len) stream1) :: items, e)
        end
      else
        match vdeserialize_int stream with
        | Err e => ([], Some e)
        | Ok (start, stream1) =>
          match vdeserialize_int stream1 with
          | Err e => ([], Some e)
          | Ok (stop, stream2) =>
            let '(items, e) := deserialize_loop fuel' true stream2 in
            if start =? stop then (items, e)
            else (PSlice (Z.to_nat start, Some (Z.to_nat stop)) :: items, e)
          end
        end
    end
  end.
Definition deserialize_changeset (stream : list Z) : list (pitem Z) * option exn :=
  deserialize_loop (length stream) true stream.
