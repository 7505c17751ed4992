(** [src/pyon/Parser.cpp]: the parser of PYON expressions. The state of the parser is the text which has not been eaten yet; going back to a saved
    index is using the text from before. Characters are codes 0 to 127 (std::isspace and std::isalpha are undefined for negative chars, and
    the char -1 is taken for the end of the input). Texts of error messages are not modelled. *)
From Coq Require Import ZArith List Bool.
From Verif Require Import TextModel.
Import ListNotations.
Open Scope Z_scope.

(** A value, an exception, or not enough steps for the recursion. *)
Inductive result (A : Type) := Ok (a : A) | Err | OutOfFuel.
Arguments Ok {A} a.
Arguments Err {A}.
Arguments OutOfFuel {A}.
Definition rbind {A B} (r : result A) (f : A -> result B) : result B := match r with Ok a => f a | Err => Err | OutOfFuel => OutOfFuel end.

(** src/pyon/Node*.h; the value of a float is represented by the text from which std::strtod makes it; arrays and dictionaries are lists in order *)
Inductive node :=
| NNone | NBool (b : bool) | NInt (i : Z) | NFloat (t : list Z) | NString (s : list Z)
| NArray (l : list node) | NDict (l : list (list Z * node)) | NClass (name : list Z) (pos : list node) (kw : list (list Z * node)).

(** Parser.cpp:308-330; [comment]: inside eatComment *)
Fixpoint ws_from (comment : bool) (s : list Z) : list Z :=
  match s with
  | [] => []
  | c :: r => if comment then ws_from (negb (Z.eqb c newline)) r
              else if is_space c then ws_from false r else if Z.eqb c 35 then ws_from true r else s
  end.
Definition ws (s : list Z) : list Z := ws_from false s.

(** Parser.cpp:295-306: a character is eaten if it is the expected one *)
Definition eat (c : Z) (s : list Z) : option (list Z) := match s with x :: r => if Z.eqb x c then Some r else None | [] => None end.
(** Characters accepted by a predicate, and the rest *)
Fixpoint span (p : Z -> bool) (s : list Z) : list Z * list Z :=
  match s with [] => ([], []) | c :: r => if p c then (c :: fst (span p r), snd (span p r)) else ([], s) end.
Definition is_alpha (c : Z) : bool := (Z.leb 65 c && Z.leb c 90) || (Z.leb 97 c && Z.leb c 122).
(** Parser.cpp:274-287 *)
Definition is_first (c : Z) : bool := is_alpha c || Z.eqb c 95.
Definition is_name (c : Z) : bool := is_alpha c || is_digit c || Z.eqb c 95.
Definition parseIdentifier (s : list Z) : option (list Z * list Z) :=
  match s with c :: r => if is_first c then Some (c :: fst (span is_name r), snd (span is_name r)) else None | [] => None end.

(** Parser.cpp:149-186, after the opening quote *)
Fixpoint string_rest (s : list Z) : result (list Z * list Z) :=
  match s with
  | [] => Err
  | c :: r =>
    if Z.eqb c 34 then Ok ([], r)
    else if Z.eqb c 92 then
      match r with
      | [] => Err
      | e :: r' =>
        let put x := rbind (string_rest r') (fun q => Ok (x :: fst q, snd q)) in
        if Z.eqb e 92 then put 92 else if Z.eqb e 34 then put 34 else if Z.eqb e 110 then put newline else if Z.eqb e 116 then put 9 else Err
      end
    else rbind (string_rest r) (fun q => Ok (c :: fst q, snd q))
  end.
Definition parseString (s : list Z) : option (result (list Z * list Z)) := match eat 34 s with Some r => Some (string_rest r) | None => None end.

(** std::strtol: white space, a sign, digits; base 0: 0x means 16, 0 means 8, otherwise 10; [None]: nothing converted. The number is not limited
    to 64 bits here. *)
Definition digit_value (c : Z) : Z :=
  if is_digit c then c - 48 else if Z.leb 97 c && Z.leb c 122 then c - 87 else if Z.leb 65 c && Z.leb c 90 then c - 55 else 99.
Definition digit_of (base c : Z) : bool := Z.ltb (digit_value c) base.
Definition number (base : Z) (ds : list Z) : Z := fold_left (fun n c => n * base + digit_value c) ds 0.
Definition take_sign (s : list Z) : list Z * list Z := match s with c :: r => if Z.eqb c 43 || Z.eqb c 45 then ([c], r) else ([], s) | [] => ([], s) end.
Definition hex_mark (c : Z) : bool := Z.eqb c 120 || Z.eqb c 88.
Definition strtol_base (base : Z) (s : list Z) : Z * list Z :=
  if Z.eqb base 0 then
    match s with
    | z :: t =>
      if Z.eqb z 48 then match t with x :: h :: _ => if hex_mark x && digit_of 16 h then (16, tl t) else (8, s) | _ => (8, s) end
      else (10, s)
    | [] => (10, [])
    end
  else (base, s).
Definition strtol (s : list Z) (base : Z) : option (Z * list Z) :=
  let q := take_sign (skip_ws s) in
  let b := strtol_base base (snd q) in
  let d := span (digit_of (fst b)) (snd b) in
  match fst d with
  | [] => None
  | _ => Some ((if text_eqb (fst q) [45] then - number (fst b) (fst d) else number (fst b) (fst d)), snd d)
  end.
(** std::strtod on a text which does not begin with white space: the text which is converted, and the rest. Infinities and NaNs are left out:
    they are errors in Parser.cpp:266-267 as not converting anything is. *)
Definition mantissa (p : Z -> bool) (s : list Z) : option (list Z * list Z) :=
  let a := span p s in
  let whole := match fst a with [] => None | _ => Some a end in
  match snd a with
  | c :: r => if Z.eqb c 46 then let b := span p r in match fst a ++ fst b with [] => None | _ => Some (fst a ++ 46 :: fst b, snd b) end else whole
  | [] => whole
  end.
Definition exponent (mark : Z -> bool) (s : list Z) : list Z * list Z :=
  match s with
  | e :: r =>
    if mark e then let q := take_sign r in let d := span is_digit (snd q) in match fst d with [] => ([], s) | _ => (e :: fst q ++ fst d, snd d) end
    else ([], s)
  | [] => ([], s)
  end.
Definition unsigned_float (s : list Z) : option (list Z * list Z) :=
  let dec := match mantissa is_digit s with
             | None => None
             | Some m => let e := exponent (fun c => Z.eqb c 101 || Z.eqb c 69) (snd m) in Some (fst m ++ fst e, snd e)
             end in
  match s with
  | z :: x :: r =>
    if Z.eqb z 48 && hex_mark x then
      match mantissa (digit_of 16) r with
      | None => dec
      | Some m => let e := exponent (fun c => Z.eqb c 112 || Z.eqb c 80) (snd m) in Some (48 :: x :: fst m ++ fst e, snd e)
      end
    else dec
  | _ => dec
  end.
Definition strtod (s : list Z) : option (list Z * list Z) :=
  let q := take_sign s in
  match unsigned_float (snd q) with None => None | Some r => Some (fst q ++ fst r, snd r) end.

(** Parser.cpp:234-253 and 397-407: the number or nothing, and the text after it *)
Definition parseInt (s : list Z) : result (option Z * list Z) :=
  let bs := match s with a :: b :: c :: r => if Z.eqb a 48 && Z.eqb b 98 then (2, c :: r) else (0, s) | _ => (0, s) end in
  match strtol (snd bs) (fst bs) with
  | None => Ok (None, snd bs)
  | Some q => if Z.leb (- 2 ^ 63) (fst q) && Z.ltb (fst q) (2 ^ 63) then Ok (Some (fst q), snd q) else Err
  end.

Section Parser.
(** Whether std::strtod reports a number out of the range of double *)
Variable erange : list Z -> bool.

(** Parser.cpp:255-272 *)
Definition parseFloat (s : list Z) : result (option (list Z) * list Z) :=
  match strtod s with None => Ok (None, s) | Some q => if erange (fst q) then Err else Ok (Some (fst q), snd q) end.
(** Parser.cpp:207-232; [Ok None]: null pointer *)
Definition parseNumeral (s : list Z) : result (option (node * list Z)) :=
  rbind (parseFloat s) (fun f => rbind (parseInt s) (fun i =>
    match fst f with
    | None => Ok None
    | Some t => if Nat.ltb (length (snd f)) (length (snd i)) then Ok (Some (NFloat t, snd f))
                else match fst i with Some n => Ok (Some (NInt n, snd i)) | None => Ok None end
    end)).

(** The loops in Parser.cpp:62-77, 89-109 and 128-142: until the closing character; [first]: nothing has been read yet *)
Fixpoint items {A} (item : A -> list Z -> result (A * list Z)) (close : Z) (fuel : nat) (first : bool) (acc : A) (s : list Z) : result (A * list Z) :=
  match fuel with
  | O => OutOfFuel
  | S fuel' =>
    match s with
    | [] => Err
    | c :: r =>
      if Z.eqb c close then Ok (acc, r)
      else
        rbind (if first then Ok s else if Z.eqb c 44 then Ok (ws r) else Err) (fun s1 =>
        rbind (item acc s1) (fun q => items item close fuel' false (fst q) (ws (snd q))))
    end
  end.
Definition has_key (k : list Z) (l : list (list Z * node)) : bool := existsb (fun e => text_eqb k (fst e)) l.
(** Parser.cpp:66-75 *)
Definition array_item (expr : list Z -> result (node * list Z)) (acc : list node) (s : list Z) : result (list node * list Z) :=
  rbind (expr s) (fun q => Ok (acc ++ [fst q], snd q)).
(** Parser.cpp:100-105 and 381-395 *)
Definition dict_item (expr : list Z -> result (node * list Z)) (acc : list (list Z * node)) (s : list Z) : result (list (list Z * node) * list Z) :=
  match parseString s with
  | None => Err
  | Some k => rbind k (fun k => match eat 58 (ws (snd k)) with
      | Some r => rbind (expr r) (fun v => if has_key (fst k) acc then Err else Ok (acc ++ [(fst k, fst v)], snd v))
      | None => Err
      end)
  end.
(** Parser.cpp:332-379 *)
Definition argument (expr : list Z -> result (node * list Z)) (acc : list node * list (list Z * node)) (s : list Z) : result ((list node * list (list Z * node)) * list Z) :=
  let positional := rbind (expr s) (fun v => match snd acc with [] => Ok ((fst acc ++ [fst v], []), snd v) | _ => Err end) in
  match parseIdentifier s with
  | None => positional
  | Some n =>
    match eat 61 (ws (snd n)) with
    | Some r => rbind (expr (ws r)) (fun v => if has_key (fst n) (snd acc) then Err else Ok ((fst acc, snd acc ++ [(fst n, fst v)]), snd v))
    | None => positional
    end
  end.
Definition text_True : list Z := [84; 114; 117; 101].
Definition text_False : list Z := [70; 97; 108; 115; 101].
Definition text_None : list Z := [78; 111; 110; 101].
(** Parser.cpp:25-147 and 188-205 *)
Fixpoint parseExpression (fuel : nat) (s0 : list Z) : result (node * list Z) :=
  match fuel with
  | O => OutOfFuel
  | S fuel' =>
    match ws s0 with
    | [] => Err
    | c :: r =>
      if Z.eqb c 91 then rbind (items (array_item (parseExpression fuel')) 93 fuel' true [] (ws r)) (fun q => Ok (NArray (fst q), snd q))
      else if Z.eqb c 123 then rbind (items (dict_item (parseExpression fuel')) 125 fuel' true [] (ws r)) (fun q => Ok (NDict (fst q), snd q))
      else match parseString (c :: r) with
      | Some q => rbind q (fun q => Ok (NString (fst q), snd q))
      | None =>
        match parseIdentifier (c :: r) with
        | Some (n, rest) =>
          if text_eqb n text_True then Ok (NBool true, rest)
          else if text_eqb n text_False then Ok (NBool false, rest)
          else if text_eqb n text_None then Ok (NNone, rest)
          else match eat 40 (ws rest) with
               | Some r' => rbind (items (argument (parseExpression fuel')) 41 fuel' true ([], []) (ws r')) (fun q => Ok (NClass n (fst (fst q)) (snd (fst q)), snd q))
               | None => Ok (NClass n [] [], ws rest)
               end
        | None => rbind (parseNumeral (c :: r)) (fun q => match q with Some q => Ok q | None => Err end)
        end
      end
    end
  end.
(** Parser.cpp:12-17 and 289-293 *)
Definition parse_with (fuel : nat) (s : list Z) : result node :=
  rbind (parseExpression fuel s) (fun q => match ws (snd q) with [] => Ok (fst q) | _ => Err end).
Definition parse (s : list Z) : result node := parse_with (2 * length s + 2) s.
End Parser.
