(** Model of the builtin module [json], as /repo/src/gaspra/manifest.py:44,48 uses
    it: [dumps] of a dict with the separators comma-newline and colon, and [loads] of a text.
    The behaviour follows CPython's Lib/json/encoder.py and decoder.py (and the C
    versions of the same functions, Modules/_json.c).
    Not modelled: the value of a float (its text is kept), the limit of 4300
    digits of Python 3.11 on the conversion of ints, and the limit on the depth of
    nested lists and dicts. *)
From Coq Require Import ZArith.
From Verif Require Import Base.
Local Open Scope Z_scope.

(** what [loads] can return *)
Inductive json :=
| JNull | JBool (b : bool) | JInt (n : Z) | JFloat (text : list Z) | JStr (s : list Z)
| JArr (l : list json) | JObj (d : dict (list Z) json).

(** * Writing *)
(** one hexadecimal digit, lower case *)
Definition hex_digit (n : Z) : Z := if n <? 10 then 48 + n else 87 + n.
(** ['\\u{0:04x}'.format(n)] *)
Definition u_escape (n : Z) : list Z :=
  [92; 117; hex_digit (n / 4096); hex_digit ((n / 256) mod 16);
   hex_digit ((n / 16) mod 16); hex_digit (n mod 16)].
(** encoder.py:22-31 and 49-70, [encode_basestring_ascii], for one character *)
Definition dump_char (c : Z) : list Z :=
  if c =? 34 then [92; 34]            (* backslash quote *)
  else if c =? 92 then [92; 92]       (* \\ *)
  else if (32 <=? c) && (c <=? 126) then [c]
  else if c =? 8 then [92; 98]        (* \b *)
  else if c =? 12 then [92; 102]      (* \f *)
  else if c =? 10 then [92; 110]      (* \n *)
  else if c =? 13 then [92; 114]      (* \r *)
  else if c =? 9 then [92; 116]       (* \t *)
  else if c <? 65536 then u_escape c
  else u_escape (55296 + (c - 65536) / 1024) ++ u_escape (56320 + (c - 65536) mod 1024).
Definition dump_str (s : list Z) : list Z := 34 :: flat_map dump_char s ++ [34].

(** [int.__repr__] *)
Fixpoint digits (fuel : nat) (n : Z) (acc : list Z) : list Z :=
  match fuel with
  | O => acc
  | S fuel => if n <? 10 then 48 + n :: acc else digits fuel (n / 10) (48 + n mod 10 :: acc)
  end.
Definition dump_nat (n : Z) : list Z := digits (S (Z.to_nat (Z.log2 n))) n [].
Definition dump_int (n : Z) : list Z := if n <? 0 then 45 :: dump_nat (- n) else dump_nat n.

(** * Reading.  [None] is a JSONDecodeError, which is a ValueError. *)
Definition is_ws (c : Z) : bool := (c =? 32) || (c =? 9) || (c =? 10) || (c =? 13).
Fixpoint skip_ws (s : list Z) : list Z :=
  match s with c :: r => if is_ws c then skip_ws r else s | [] => [] end.

Definition hex_value (c : Z) : option Z :=
  if (48 <=? c) && (c <=? 57) then Some (c - 48)
  else if (97 <=? c) && (c <=? 102) then Some (c - 87)
  else if (65 <=? c) && (c <=? 70) then Some (c - 55)
  else None.
(** decoder.py:59-68 *)
Definition hex4 (a b c d : Z) : option Z :=
  match hex_value a, hex_value b, hex_value c, hex_value d with
  | Some a, Some b, Some c, Some d => Some (4096 * a + 256 * b + 16 * c + d)
  | _, _, _, _ => None
  end.
(** decoder.py:54-57, the other escapes *)
Definition simple_escape (c : Z) : option Z :=
  if c =? 34 then Some 34 else if c =? 92 then Some 92 else if c =? 47 then Some 47
  else if c =? 98 then Some 8 else if c =? 102 then Some 12 else if c =? 110 then Some 10
  else if c =? 114 then Some 13 else if c =? 116 then Some 9 else None.
Definition is_high (u : Z) : bool := (55296 <=? u) && (u <=? 56319).
Definition is_low (u : Z) : bool := (56320 <=? u) && (u <=? 57343).
Definition join_pair (u u2 : Z) : Z := 65536 + ((u - 55296) * 1024 + (u2 - 56320)).

Definition push {A} (c : Z) (r : option (list Z * A)) : option (list Z * A) :=
  match r with Some (s, rest) => Some (c :: s, rest) | None => None end.
(** decoder.py:70-126, [scanstring]: [s] is what follows the opening quote; the
    result is the string and what follows the closing quote. *)
Fixpoint scan_string (s : list Z) : option (list Z * list Z) :=
  match s with
  | [] => None
  | c :: s1 =>
    if c =? 34 then Some ([], s1)
    else if c <? 32 then None
    else if negb (c =? 92) then push c (scan_string s1)
    else match s1 with
    | [] => None
    | e :: s2 =>
      if negb (e =? 117) then
        match simple_escape e with Some x => push x (scan_string s2) | None => None end
      else match s2 with
      | h1 :: h2 :: h3 :: h4 :: s3 =>
        match hex4 h1 h2 h3 h4 with
        | None => None
        | Some u =>
          if is_high u then
            match s3 with
            | b :: (x :: s4) =>
              if (b =? 92) && (x =? 117) then
                match s4 with
                | k1 :: k2 :: k3 :: k4 :: s5 =>
                  match hex4 k1 k2 k3 k4 with
                  | None => None
                  | Some u2 =>
                    if is_low u2 then push (join_pair u u2) (scan_string s5)
                    else push u (scan_string s3)
                  end
                | _ => None
                end
              else push u (scan_string s3)
            | _ => push u (scan_string s3)
            end
          else push u (scan_string s3)
        end
      | _ => None
      end
    end
  end.

(** scanner.py:10-13 and 42-49, numbers: an optional minus; [0] or digits without
    a leading [0]; an optional fraction; an optional exponent. *)
Definition is_digit (c : Z) : bool := (48 <=? c) && (c <=? 57).
Fixpoint span_digits (s : list Z) : list Z * list Z :=
  match s with
  | c :: r => if is_digit c then let '(a, b) := span_digits r in (c :: a, b) else ([], s)
  | [] => ([], [])
  end.
Definition int_value (l : list Z) : Z := fold_left (fun a c => 10 * a + (c - 48)) l 0.
(** the digits of the integral part *)
Definition scan_nat (s : list Z) : option (list Z * list Z) :=
  match s with
  | c :: r => if c =? 48 then Some ([c], r)
              else if is_digit c then Some (span_digits s) else None
  | [] => None
  end.
Definition scan_frac (s : list Z) : list Z * list Z :=
  match s with
  | c :: r => if c =? 46 then match span_digits r with
                              | ([], _) => ([], s)
                              | (d, r') => (c :: d, r')
                              end
              else ([], s)
  | [] => ([], [])
  end.
Definition scan_exp (s : list Z) : list Z * list Z :=
  match s with
  | c :: r =>
    if (c =? 101) || (c =? 69) then
      let '(sign, r1) := match r with
                         | x :: r1 => if (x =? 43) || (x =? 45) then ([x], r1) else ([], r)
                         | [] => ([], r)
                         end in
      match span_digits r1 with
      | ([], _) => ([], s)
      | (d, r') => (c :: sign ++ d, r')
      end
    else ([], s)
  | [] => ([], [])
  end.
Definition scan_number (s : list Z) : option (json * list Z) :=
  let '(neg, s1) := match s with
                    | c :: r => if c =? 45 then (true, r) else (false, s)
                    | [] => (false, s)
                    end in
  match scan_nat s1 with
  | None => None
  | Some (d, s2) =>
    let '(f, s3) := scan_frac s2 in
    let '(e, s4) := scan_exp s3 in
    Some (match f ++ e with
          | [] => JInt (if neg then - int_value d else int_value d)
          | fe => JFloat ((if neg then [45] else []) ++ d ++ fe)
          end, s4)
  end.

Fixpoint strip_prefix (p s : list Z) : option (list Z) :=
  match p, s with
  | [], _ => Some s
  | a :: p, b :: s => if a =? b then strip_prefix p s else None
  | _ :: _, [] => None
  end.
(** the words of the language *)
Definition scan_word (s : list Z) : option (json * list Z) :=
  match strip_prefix [110; 117; 108; 108] s with                       (* null *)
  | Some r => Some (JNull, r) | None =>
  match strip_prefix [116; 114; 117; 101] s with                       (* true *)
  | Some r => Some (JBool true, r) | None =>
  match strip_prefix [102; 97; 108; 115; 101] s with                   (* false *)
  | Some r => Some (JBool false, r) | None =>
  match scan_number s with
  | Some x => Some x | None =>
  match strip_prefix [78; 97; 78] s with                               (* NaN *)
  | Some r => Some (JFloat [78; 97; 78], r) | None =>
  match strip_prefix [73; 110; 102; 105; 110; 105; 116; 121] s with    (* Infinity *)
  | Some r => Some (JFloat [73; 110; 102; 105; 110; 105; 116; 121], r) | None =>
  match strip_prefix [45; 73; 110; 102; 105; 110; 105; 116; 121] s with (* -Infinity *)
  | Some r => Some (JFloat [45; 73; 110; 102; 105; 110; 105; 116; 121], r) | None => None
  end end end end end end end.

(** [dict(pairs)]: the last value of a key wins *)
Definition dict_of {V} (pairs : list (list Z * V)) : dict (list Z) V :=
  fold_left (fun d kv => dset d (fst kv) (snd kv)) pairs [].

(** scanner.py:28-58 [scan_once]; decoder.py:137-216 [JSONObject], the loop from the
    opening quote of a key; decoder.py:218-253 [JSONArray], the loop.  The fuel
    bounds the depth of the calls, which never exceeds the length of the text. *)
Fixpoint scan_value (fuel : nat) (s : list Z) : option (json * list Z) :=
  match fuel with
  | O => None
  | S fuel =>
    match s with
    | [] => None
    | c :: r =>
      if c =? 34 then
        match scan_string r with Some (x, r) => Some (JStr x, r) | None => None end
      else if c =? 123 then
        match skip_ws r with
        | c :: r1 =>
          if c =? 125 then Some (JObj [], r1)
          else if c =? 34 then
            match scan_members fuel r1 with
            | Some (pairs, r2) => Some (JObj (dict_of pairs), r2)
            | None => None
            end
          else None
        | [] => None
        end
      else if c =? 91 then
        match skip_ws r with
        | c1 :: r1 =>
          if c1 =? 93 then Some (JArr [], r1)
          else match scan_elements fuel (c1 :: r1) with
               | Some (l, r2) => Some (JArr l, r2)
               | None => None
               end
        | [] => None
        end
      else scan_word s
    end
  end
with scan_members (fuel : nat) (s : list Z) : option (list (list Z * json) * list Z) :=
  match fuel with
  | O => None
  | S fuel =>
    match scan_string s with
    | None => None
    | Some (key, r) =>
      match skip_ws r with
      | [] => None
      | c :: r =>
        if c =? 58 then
          match scan_value fuel (skip_ws r) with
          | None => None
          | Some (v, r) =>
            match skip_ws r with
            | [] => None
            | c :: r =>
              if c =? 125 then Some ([(key, v)], r)
              else if c =? 44 then
                match skip_ws r with
                | [] => None
                | c :: r =>
                  if c =? 34 then
                    match scan_members fuel r with
                    | Some (pairs, r) => Some ((key, v) :: pairs, r)
                    | None => None
                    end
                  else None
                end
              else None
            end
          end
        else None
      end
    end
  end
with scan_elements (fuel : nat) (s : list Z) : option (list json * list Z) :=
  match fuel with
  | O => None
  | S fuel =>
    match scan_value fuel s with
    | None => None
    | Some (v, r) =>
      match skip_ws r with
      | [] => None
      | c :: r =>
        if c =? 93 then Some ([v], r)
        else if c =? 44 then
          match scan_elements fuel (skip_ws r) with
          | Some (l, r) => Some (v :: l, r)
          | None => None
          end
        else None
      end
    end
  end.

(** json/__init__.py [loads] of a str: a byte order mark is an error, as is
    anything but white space after the value. *)
Definition loads (s : list Z) : res json :=
  match s with
  | c :: _ => if c =? 65279 then Err ValueError else
    match scan_value (S (length s)) (skip_ws s) with
    | Some (v, r) => match skip_ws r with [] => Ok v | _ => Err ValueError end
    | None => Err ValueError
    end
  | [] => Err ValueError
  end.
