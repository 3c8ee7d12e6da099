(** Model of what the library rich (13.x, locked to 13.7.0 in /repo/poetry.lock) does with a
    string printed by console_writer (/repo/src/gaspra/markup.py:65-73): rich/markup.py
    (_parse, render), rich/_emoji_replace.py and Text.append.  Its source is not part of
    /repo; the model follows the public source of 13.4.2.

    Not modelled: laying out the text (lines are wrapped at the width of the console, tabs
    become spaces), the parameters of tags, and handlers (names with an at sign, whose
    parameters can be malformed). *)
From Coq Require Import String.
From Verif Require Import Base Tokenizers Lines Markup.
Local Open Scope Z_scope.
Local Open Scope list_scope.

(** RE_TAGS: any number of backslashes, an opening bracket, a-z or one of # / @, and
    anything but an opening bracket up to the first closing bracket *)
Definition tag_start (c : Z) : bool :=
  (97 <=? c) && (c <=? 122) || (c =? 35) || (c =? 47) || (c =? 64).
Fixpoint to_close (s : list Z) : option (list Z * list Z) :=
  match s with
  | [] => None
  | c :: s =>
    if c =? 93 then Some ([], s)
    else if c =? 91 then None
    else match to_close s with Some (t, r) => Some (c :: t, r) | None => None end
  end.
(** the tag at an opening bracket: the text in the brackets, and what follows *)
Definition tag_at (s : list Z) : option (list Z * list Z) :=
  match s with
  | b :: c :: s =>
    if (b =? 91) && tag_start c then
      match to_close s with Some (t, r) => Some (c :: t, r) | None => None end
    else None
  | _ => None
  end.

(** _parse: plain text and tags.  [k] backslashes and before them [acc] (reversed) have
    been read since the last match. *)
Inductive piece := PText (s : list Z) | PTag (s : list Z).
Definition text_piece (s : list Z) : list piece := match s with [] => [] | _ => [PText s] end.
Definition backslashes (k : nat) : list Z := repeat 92 k.
Fixpoint parse (fuel : nat) (s : list Z) (k : nat) (acc : list Z) : list piece :=
  match fuel with
  | O => text_piece (rev acc ++ backslashes k)
  | S fuel =>
    match s with
    | [] => text_piece (rev acc ++ backslashes k)
    | c :: r =>
      if c =? 92 then parse fuel r (S k) acc
      else match tag_at s with
           | Some (t, r) =>
             text_piece (rev acc) ++ text_piece (backslashes (Nat.div2 k)) ++
             (if Nat.odd k then PText (91 :: t ++ [93]) else PTag t) :: parse fuel r 0 []
           | None => parse fuel r 0 (c :: backslashes k ++ acc)
           end
    end
  end.
Definition parse_markup (s : list Z) : list piece := parse (length s) s 0 [].

(** plain_text.replace("\\[", "[") *)
Fixpoint unescape (s : list Z) : list Z :=
  match s with
  | [] => []
  | c :: r =>
    match r with
    | d :: r' => if (c =? 92) && (d =? 91) then 91 :: unescape r' else c :: unescape r
    | [] => [c]
    end
  end.
(** strip_control_codes *)
Definition control (c : Z) : bool := existsb (Z.eqb c) [7; 8; 11; 12; 13].
Definition strip_control (s : list Z) : list Z := filter (fun c => negb (control c)) s.

Section Rich.
(** what \s matches *)
Variable space : Z -> bool.
(** EMOJI.get(name.lower()) *)
Variable emoji : list Z -> option (list Z).
(** Style.normalize *)
Variable normalize : list Z -> list Z.

(** _emoji_replace: a colon, the shortest possible name without white space, maybe
    a variant, a colon *)
Fixpoint strip_prefix (p s : list Z) : option (list Z) :=
  match p, s with
  | [], _ => Some s
  | x :: p, y :: s => if x =? y then strip_prefix p s else None
  | _ :: _, [] => None
  end.
Fixpoint emoji_name (s : list Z) : option (list Z * list Z * list Z) :=
  match strip_prefix (str "-emoji:") s with
  | Some r => Some ([], [65039], r)
  | None =>
    match strip_prefix (str "-text:") s with
    | Some r => Some ([], [65038], r)
    | None =>
      match s with
      | [] => None
      | c :: r =>
        if c =? 58 then Some ([], [], r)
        else if space c then None
        else match emoji_name r with
             | Some (n, v, r) => Some (c :: n, v, r)
             | None => None
             end
      end
    end
  end.
Fixpoint emoji_loop (fuel : nat) (s : list Z) : list Z :=
  match fuel, s with
  | O, _ | _, [] => s
  | S fuel, c :: r =>
    if c =? 58 then
      match emoji_name r with
      | Some (n, v, rest) =>
        (match emoji n with
         | Some e => e ++ v
         | None => c :: firstn (length r - length rest) r
         end) ++ emoji_loop fuel rest
      | None => c :: emoji_loop fuel r
      end
    else c :: emoji_loop fuel r
  end.
Definition emoji_replace (s : list Z) : list Z := emoji_loop (length s) s.

(** A character and the names of the tags open around it, innermost first. *)
Definition cell : Type := Z * list (list Z).
Definition put (s : list Z) (stack : list (list Z)) : list cell := map (fun c => (c, stack)) s.
(** tag_text.partition("=")[0] *)
Fixpoint before_equals (s : list Z) : list Z :=
  match s with [] => [] | c :: s => if c =? 61 then [] else c :: before_equals s end.
Fixpoint lstrip (s : list Z) : list Z :=
  match s with [] => [] | c :: r => if space c then lstrip r else s end.
Definition strip (s : list Z) : list Z := rev (lstrip (rev (lstrip s))).
(** pop_style *)
Fixpoint pop_style (name : list Z) (stack : list (list Z)) : option (list (list Z)) :=
  match stack with
  | [] => None
  | t :: stack => if teq t name then Some stack else
                  match pop_style name stack with Some r => Some (t :: r) | None => None end
  end.
Definition starts_slash (s : list Z) : bool := match s with c :: _ => c =? 47 | [] => false end.
(** render: the cells, or MarkupError *)
Fixpoint render_pieces (l : list piece) (stack : list (list Z)) : res (list cell) :=
  match l with
  | [] => Ok []
  | PText s :: l =>
    let* r := render_pieces l stack in
    Ok (put (strip_control (emoji_replace (unescape s))) stack ++ r)
  | PTag t :: l =>
    let name := before_equals t in
    if starts_slash name then
      match strip (List.tl name) with
      | [] => match stack with [] => Err MarkupError | _ :: stack => render_pieces l stack end
      | n => match pop_style (normalize n) stack with
             | None => Err MarkupError
             | Some stack => render_pieces l stack
             end
      end
    else render_pieces l (normalize name :: stack)
  end.
(** the case without an opening bracket (the first lines of render) gives the same *)
Definition render (s : list Z) : res (list cell) := render_pieces (parse_markup s) [].

(** markup.py:65-73, console_writer: everything shown, and the exception that ended it *)
Fixpoint print_all (chunks : list (list Z)) (e : option exn) : list cell * option exn :=
  match chunks with
  | [] => ([], e)
  | s :: chunks =>
    match render s with
    | Ok c => let '(r, x) := print_all chunks e in (c ++ r, x)
    | Err x => ([], Some x)
    end
  end.
Definition on_console (out : output) : list cell * option exn := print_all (fst out) (snd out).
End Rich.
