(** The canonical text of a PYON value. *)
From Coq Require Import ZArith List Bool.
From Verif Require Import TextModel PyonModel PyonSpec.
Import ListNotations.
Open Scope Z_scope.

Definition print_int (z : Z) : list Z := if Z.ltb z 0 then 45 :: decimal (- z) else decimal z.
(** Quotes, backslashes, line feeds and tabs are escaped. *)
Definition print_char (c : Z) : list Z := if Z.eqb c 34 then [92; 34] else if Z.eqb c 92 then [92; 92] else if Z.eqb c newline then [92; 110] else if Z.eqb c 9 then [92; 116] else [c].
Definition print_string (s : list Z) : list Z := 34 :: flat_map print_char s ++ [34].
(** Things with ", " between them. *)
Fixpoint commas (ts : list (list Z)) : list Z := match ts with [] => [] | [t] => t | t :: ts' => t ++ 44 :: 32 :: commas ts' end.
Fixpoint print (v : node) : list Z :=
  match v with
  | NNone => text_None | NBool true => text_True | NBool false => text_False | NInt z => print_int z | NFloat t => t | NString s => print_string s
  | NArray l => 91 :: commas (map print l) ++ [93]
  | NDict l => 123 :: commas (map (fun e => match e with (k, v) => print_string k ++ 58 :: 32 :: print v end) l) ++ [125]
  | NClass n p k => n ++ 40 :: commas (map print p ++ map (fun e => match e with (k, v) => k ++ 61 :: print v end) k) ++ [41]
  end.
(** Values which can be written: 64-bit integers, floats written in a decimal notation, distinct keys, proper names. *)
Inductive proper (erange : list Z -> bool) : node -> Prop :=
| P_none : proper erange NNone
| P_bool b : proper erange (NBool b)
| P_int z : in_range z -> proper erange (NInt z)
| P_float t : clean_float t -> erange t = false -> proper erange (NFloat t)
| P_string s : proper erange (NString s)
| P_array l : Forall (proper erange) l -> proper erange (NArray l)
| P_dict l : Forall (proper erange) (map snd l) -> NoDup (map fst l) -> proper erange (NDict l)
| P_class n p k : name n -> ~ reserved n -> Forall (proper erange) p -> Forall (proper erange) (map snd k) -> Forall name (map fst k) -> NoDup (map fst k) -> proper erange (NClass n p k).
(** Integers of up to 19 digits are in the range of double. *)
Definition sane (erange : list Z -> bool) : Prop := forall sg k ds, sign_text sg k -> decimal_digits ds -> (length ds <= 19)%nat -> erange (sg ++ ds) = false.
