(** Specification vocabulary for files. *)
From Verif Require Import Base Tokenizers SpecTokenizers Files.
Local Open Scope Z_scope.

(** every file consists of bytes *)
Definition real_files (fs : files) : Prop := forall n b, dget fs n = Some b -> Forall (fun x => 0 <= x < 256) b.
(** the line separators of the platforms *)
Definition a_linesep (l : list Z) : Prop := l = [10] \/ l = [13; 10] \/ l = [13].
(** a file name that can be written to a file: all its characters are encodable, and no
    carriage return *)
Definition plain_name (n : list Z) : Prop := Forall scalar_value n /\ ~ In 13 n.
(** two file systems agree except on one name *)
Definition same_but (name : list Z) (fs fs' : files) : Prop :=
  forall n, n <> name -> dget fs' n = dget fs n.

(** a code point that UTF-8 does not encode *)
Definition surrogate (z : Z) : Prop := 55296 <= z <= 57343.
(** [b] are the bytes in the file and [y] the exception when a program calls [write] for
    each of these chunks and then ends, with the exception [x] or without: everything up to
    the first chunk that cannot be encoded is in the file, and no exception is lost *)
Definition written (linesep : list Z) (chunks : list (list Z)) (x : option exn) (b : list Z) (y : option exn) : Prop :=
  exists pre post, chunks = pre ++ post /\
    b = flat_map utf8_char (flat_map (fun c => if c =? 10 then linesep else [c]) (concat pre)) /\
    (forall z, In z (concat pre) -> ~ surrogate z) /\
    (post = [] /\ y = x \/ exists c r z, post = c :: r /\ In z c /\ surrogate z /\ y = Some ValueError).
(** the UTF-8 of a text whose lines all end as is usual on the platform *)
Definition platform_text (linesep b : list Z) : Prop := exists t, Forall scalar_value t /\ ~ In 13 t /\
  b = flat_map utf8_char (flat_map (fun c => if c =? 10 then linesep else [c]) t).
