(** Model of /repo/src/gaspra/markup.py and of the parts of merge_tool.py between
    reading the files and writing the output.

    Not modelled here: argparse, the file system and os.path.basename (names are given
    as they come out of it; see Files.v), and rich, which turns what console_writer prints
    into colours (see Rich.v). *)
From Coq Require Import String Ascii.
From Verif Require Import Base Changesets Merge Tokenizers Lines.
Local Open Scope Z_scope.
Local Open Scope list_scope.

(** string literals *)
Definition str (s : string) : list Z := map (fun a => Z.of_N (N_of_ascii a)) (list_ascii_of_string s).

(** A branch name is a str or None; [f"{s}"] of None is "None". *)
Definition bname := option (list Z).
Definition show_name (n : bname) : list Z := match n with Some s => s | None => str "None" end.

(** The values under "into" and "from": a dict with a prefix and a suffix, or (after
    --strikeout) a function, which cannot be subscripted. *)
Inductive branch :=
| Branch (prefix suffix : bname -> list Z)
| BFunction (result : list Z).
Record markup := mkMarkup {
  m_into : branch;
  m_from : branch;
  m_separator : list Z;
  m_header : option (list Z * list Z)
}.
Definition newline : list Z := [10].
Definition const (s : string) : bname -> list Z := fun _ => str s.

(** markup.py:13-38 *)
Definition COLORED_LEVEL0 : markup :=
  mkMarkup (Branch (const "[green4]") (const "[/]")) (Branch (const "[dark_red]") (const "[/]")) []
    (Some (str "<<<[bright_blue]", str "[/]>>>" ++ newline)).
Definition GIT_MARKUP_LEVEL0 : markup :=
  mkMarkup (Branch (fun s => str "<<<<<<< " ++ show_name s ++ newline) (const ""))
           (Branch (const "") (fun s => str ">>>>>>> " ++ show_name s ++ newline))
           (str "=======" ++ newline) None.
Definition PLAIN_LEVEL1 : markup :=
  mkMarkup (Branch (const "") (const "")) (Branch (const "") (const "")) []
    (Some (str "<<<", str ">>>" ++ newline)).
Definition COLORED_LEVEL1 : markup :=
  mkMarkup (Branch (const "[light_green]") (const "[/]")) (Branch (const "[pink1]") (const "[/]")) [] None.
(** 41-46, strikeout_level0, strikeout_level1: functions without arguments *)
Definition strikeout_level0 : branch := BFunction (str "[dark_red strike]").
Definition strikeout_level1 : branch := BFunction (str "[pink1 strike]").

(** 9-10, rich_escape *)
Definition rich_escape (s : list Z) : list Z := flat_map (fun c => if c =? 91 then [92; 91] else [c]) s.

(** the items a stream may have: str, and Change of two str or two tuples *)
Inductive side := Flat (s : list Z) | Nested (l : list litem).
Inductive mitem := MStr (s : list Z) | MChange (a b : side).
Definition side_true (x : side) : bool :=
  match x with Flat s => nonempty s | Nested l => nonempty l end.

Section Escape.
Variable escape : list Z -> list Z.

Definition subscript (b : branch) : res ((bname -> list Z) * (bname -> list Z)) :=
  match b with Branch p s => Ok (p, s) | BFunction _ => Err TypeError end.

(** 119-133, markup_change_item, on a str *)
Definition flat_item (s : list Z) (b : branch) (name : bname) : res (list Z) :=
  let* ps := subscript b in Ok (fst ps name ++ escape s ++ snd ps name).
(** 76-116, markup_stream, on the tuple inside a Change, with all that is written
    to the buffer; there are no names *)
Fixpoint inner_stream (l : list litem) (m : markup) : res (list Z) :=
  match l with
  | [] => Ok []
  | LStr s :: l => let* r := inner_stream l m in Ok (escape s ++ r)
  | LChange a b :: l =>
    let* x := if nonempty a then flat_item a (m_into m) None else Ok [] in
    let* y := if nonempty b then flat_item b (m_from m) None else Ok [] in
    let* r := inner_stream l m in
    Ok (x ++ m_separator m ++ y ++ r)
  end.
(** 119-133, markup_change_item; [m] is the markup for the inner items, None cannot
    be subscripted *)
Definition change_item (x : side) (b : branch) (name : bname) (m : option markup) : res (list Z) :=
  match x with
  | Flat s => flat_item s b name
  | Nested l =>
    let* ps := subscript b in
    match m with
    | None => Err TypeError
    | Some m => let* r := inner_stream l m in Ok (fst ps name ++ r ++ snd ps name)
    end
  end.

(** 76-116, markup_stream: what is printed, and None or the exception *)
Definition output : Type := list (list Z) * option exn.
Definition then_print (o : res (list Z)) (k : output) : output :=
  match o with Ok s => (s :: fst k, snd k) | Err e => ([], Some e) end.
Fixpoint markup_stream (l : list mitem) (m0 : markup) (m1 : option markup) (name_into name_from : bname) : output :=
  match l with
  | [] => ([], None)
  | MStr s :: l => then_print (Ok (escape s)) (markup_stream l m0 m1 name_into name_from)
  | MChange a b :: l =>
    let rest := markup_stream l m0 m1 name_into name_from in
    let rest := if side_true b then then_print (change_item b (m_from m0) name_from m1) rest else rest in
    let rest := then_print (Ok (m_separator m0)) rest in
    if side_true a then then_print (change_item a (m_into m0) name_into m1) rest else rest
  end.

(** 49-54, show_header; 136-149, markup_changes *)
Definition show_header (header : list Z) (m : markup) : list Z :=
  let ps := match m_header m with Some ps => ps | None => ([], []) end in
  newline ++ fst ps ++ header ++ snd ps.
Definition markup_changes (l : list mitem) (m0 : markup) (m1 : option markup) (name_into name_from : bname)
    (header : option (list Z)) : output :=
  let body := markup_stream l m0 m1 name_into name_from in
  match header with
  | Some ((_ :: _) as h) => then_print (Ok (show_header h m0)) body
  | _ => body
  end.
End Escape.

(** * merge_tool.py *)
(** the options (31-118) *)
Record options := mkOptions {
  o_output : bool;          (* -o was given *)
  o_words : bool;
  o_lines : bool;
  o_show_lines : bool;
  o_git : bool;
  o_strikeout : bool;
  o_diff : bool
}.
(** The module-level dicts of markup.py that get_markup_style may change *)
Record styles := mkStyles { git0 : markup; colored0 : markup; plain1 : markup; colored1 : markup }.
Definition initial_styles : styles := mkStyles GIT_MARKUP_LEVEL0 COLORED_LEVEL0 PLAIN_LEVEL1 COLORED_LEVEL1.
Definition set_from (b : branch) (m : markup) : markup := mkMarkup (m_into m) b (m_separator m) (m_header m).

(** merge_tool.py:145-161, get_markup_style; the assignments of 158 and 159 change the
    module-level dicts, the copy is taken afterwards *)
Definition get_markup_style (o : options) (allow_strikeout : bool) (g : styles) : styles * (markup * markup) :=
  let g := if o_strikeout o && allow_strikeout then
             mkStyles (if o_git o then set_from strikeout_level0 (git0 g) else git0 g)
                      (if o_git o then colored0 g else set_from strikeout_level0 (colored0 g))
                      (if o_output o then set_from strikeout_level1 (plain1 g) else plain1 g)
                      (if o_output o then colored1 g else set_from strikeout_level1 (colored1 g))
           else g in
  (g, (if o_git o then git0 g else colored0 g, if o_output o then plain1 g else colored1 g)).

(** 164-169, get_writer: file_writer does not escape (markup.py:61), console_writer
    does (markup.py:72) *)
Definition escape_of (o : options) : list Z -> list Z := if o_output o then (fun s => s) else rich_escape.

(** 244-249, make_tokenizer *)
Definition tokenizer_of (o : options) : tkind :=
  if o_words o then KSymbol else if o_lines o then KLine else KChar.

(** decoded changes as the two kinds of streams *)
Definition as_ditem (i : titem) : ditem Z :=
  match i with TText t => DText (raw t) | TChange a b => DChange (raw a) (raw b) end.
Definition flat_stream (d : list (ditem Z)) : list mitem :=
  map (fun i => match i with DText s => MStr s | DChange a b => MChange (Flat a) (Flat b) end) d.
Definition line_stream (d : list oitem) : list mitem :=
  map (fun i => match i with OStr s => MStr s | OChange a b => MChange (Nested a) (Nested b) end) d.

Section Cli.
Variable re_w space : Z -> bool.

(** 221-223, 230-231, 269-270 *)
Definition shown (o : options) (d : list (ditem Z)) : res (list mitem) :=
  if o_show_lines o || o_git o then
    let* l := consolidated_line_diff space d in Ok (line_stream l)
  else Ok (flat_stream d).

(** 121-142, the function get_markup_function returns, applied; an exception of the
    generators it consumes comes first here *)
Definition display (o : options) (style : markup * markup) (d : list (ditem Z)) (branch0 branch1 : list Z)
    (header : option (list Z)) : output :=
  match shown o d with
  | Err e => ([], Some e)
  | Ok l => markup_changes (escape_of o) l (fst style) (Some (snd style)) (Some branch0) (Some branch1) header
  end.

(** 252-277, diff_cli; the texts are those of the files (280-291) *)
Definition diff_cli (o : options) (original modified original_name modified_name : list Z) (g : styles)
  : styles * output :=
  let '(g, style) := get_markup_style o true g in                                 (* 265 *)
  match snd (diff re_w (tokenizer_of o) new_tokenizer (CStr original) (CStr modified)) with (* 267 *)
  | Err e => (g, ([], Some e))
  | Ok d => (g, display o style (map as_ditem d)
                  (escape_of o modified_name) (escape_of o original_name) None)   (* 269-277 *)
  end.

(** 191-241, _merge *)
Definition merge_cli (o : options) (parent current other parent_name current_name other_name : list Z) (g : styles)
  : styles * output :=
  let k := tokenizer_of o in
  let '(st, p) := encode re_w k new_tokenizer (CStr parent) in                    (* 196-198 *)
  let '(st, c) := encode re_w k st (CStr current) in
  let '(st, t) := encode re_w k st (CStr other) in
  match p, c, t with
  | Ok p, Ok c, Ok t =>
    let changes x := let* d := diff_token_sequences p x in                        (* 205-210 *)
                     let* d := decode_changes k st d in Ok (map as_ditem d) in
    let '(g, diffs) :=
      if o_diff o then                                                            (* 202-226 *)
        let '(g, style) := get_markup_style o true g in
        match changes c, changes t with
        | Ok dc, Ok dt =>
          let '(p1, e1) := display o style dc current_name parent_name (Some current_name) in
          match e1 with
          | Some e => (g, (p1, Some e))
          | None => let '(p2, e2) := display o style dt other_name parent_name (Some other_name) in
                    (g, (p1 ++ p2, e2))
          end
        | Err e, _ | _, Err e => (g, ([], Some e))
        end
      else (g, ([], None)) in
    match diffs with
    | (out, Some e) => (g, (out, Some e))
    | (out, None) =>
      let merged := let* m := merge_token_sequence KTuple p c t in                (* 228 *)
                    let* m := decode_changes k st m in Ok (map as_ditem m) in
      let '(g, style) := get_markup_style o false g in                            (* 233 *)
      match merged with
      | Err e => (g, (out, Some e))
      | Ok d => let '(p3, e3) := display o style d current_name other_name        (* 235-241 *)
                                   (if o_diff o then Some (str "Merged") else None) in
                (g, (out ++ p3, e3))
      end
    end
  | Err e, _, _ | _, Err e, _ | _, _, Err e => (g, ([], Some e))
  end.
End Cli.
