(** Text streams of the C++ standard library, in the "C" locale, as far as the code uses them.

    A text is a list of character codes (0 to 255). An input stream is the text which has not been extracted yet; when an extraction fails,
    the stream stays in the failed state and nothing more can be extracted from it, which is modelled as [None]. *)
From Coq Require Import Decimal DecimalN ZArith NArith List Bool.
From Verif Require Import OptModel.
Import ListNotations.
Open Scope Z_scope.

Notation char := Z (only parsing).
Notation text := (list Z) (only parsing).

(** std::isspace: tab, line feed, vertical tab, form feed, carriage return, space. *)
Definition is_space (c : char) : bool := (Z.leb 9 c && Z.leb c 13) || Z.eqb c 32.
Definition is_digit (c : char) : bool := Z.leb 48 c && Z.leb c 57.
Definition newline : char := 10.
Definition space : char := 32.

(** Equality of texts. *)
Fixpoint text_eqb (a b : text) : bool :=
  match a, b with [], [] => true | x :: a', y :: b' => Z.eqb x y && text_eqb a' b' | _, _ => false end.
(** std::string::operator<: lexicographical, by codes. *)
Fixpoint text_ltb (a b : text) : bool :=
  match a, b with
  | _, [] => false
  | [], _ :: _ => true
  | x :: a', y :: b' => Z.ltb x y || (Z.eqb x y && text_ltb a' b')
  end.

(** std::ws *)
Fixpoint skip_ws (l : text) : text :=
  match l with c :: l' => if is_space c then skip_ws l' else l | [] => [] end.

(** Unsigned numbers in decimal. *)
Fixpoint uint_text (u : uint) : text :=
  match u with
  | Nil => []
  | D0 u => 48 :: uint_text u | D1 u => 49 :: uint_text u | D2 u => 50 :: uint_text u | D3 u => 51 :: uint_text u | D4 u => 52 :: uint_text u
  | D5 u => 53 :: uint_text u | D6 u => 54 :: uint_text u | D7 u => 55 :: uint_text u | D8 u => 56 :: uint_text u | D9 u => 57 :: uint_text u
  end.
(** operator<< and std::to_string of a std::size_t. *)
Definition decimal (z : Z) : text := uint_text (N.to_uint (Z.to_N z)).
Definition digit (c : char) (u : uint) : uint :=
  match c with
  | 48 => D0 u | 49 => D1 u | 50 => D2 u | 51 => D3 u | 52 => D4 u | 53 => D5 u | 54 => D6 u | 55 => D7 u | 56 => D8 u | _ => D9 u
  end.
(** The digits at the beginning, and the rest. *)
Fixpoint take_digits (l : text) : uint * text :=
  match l with
  | c :: l' => if is_digit c then let r := take_digits l' in (digit c (fst r), snd r) else (Nil, l)
  | [] => (Nil, [])
  end.
(** operator>> to a std::size_t: white space, a sign, digits; a negative number is taken modulo 2^64, a too large one is an error. *)
Definition extract_size (l : text) : option (Z * text) :=
  let l1 := skip_ws l in
  let '(neg, l2) := match l1 with 45 :: r => (true, r) | 43 :: r => (false, r) | _ => (false, l1) end in
  let '(u, rest) := take_digits l2 in
  match u with
  | Nil => None
  | _ => let v := Z.of_N (N.of_uint u) in
         if Z.leb (2 ^ 64) v then None else Some ((if neg then (- v) mod 2 ^ 64 else v), rest)
  end.

(** operator>> to a std::string: white space is skipped, at least one character is needed. *)
Fixpoint take_word (l : text) : text * text :=
  match l with
  | c :: l' => if is_space c then ([], l) else let r := take_word l' in (c :: fst r, snd r)
  | [] => ([], [])
  end.
Definition extract_word (l : text) : option (text * text) :=
  let r := take_word (skip_ws l) in match fst r with [] => None | _ => Some r end.

(** std::getline: up to the delimiter, which is discarded; fails at the end of the stream. *)
Fixpoint take_line (delim : char) (l : text) : text * text :=
  match l with
  | c :: l' => if Z.eqb c delim then ([], l') else let r := take_line delim l' in (c :: fst r, snd r)
  | [] => ([], [])
  end.
Definition getline (delim : char) (l : text) : option (text * text) :=
  match l with [] => None | _ => Some (take_line delim l) end.

(** std::map<std::string, std::string>: pairs ordered by keys; operator[] followed by an assignment. *)
Fixpoint map_set {A} (k : text) (v : A) (m : list (text * A)) : list (text * A) :=
  match m with
  | [] => [(k, v)]
  | (k', v') :: m' => if text_ltb k k' then (k, v) :: m else if text_eqb k k' then (k, v) :: m' else (k', v') :: map_set k v m'
  end.
