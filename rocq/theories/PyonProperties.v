(** C35 and C36: the PYON parser. *)
From Coq Require Import ZArith List Bool String.
From Verif Require Import TextModel ConfigExamples PyonModel PyonSpec PyonPrintSpec PyonPrintProofs PyonFinalProofs.
Import ListNotations.
Open Scope Z_scope.

(** Every proper value, of any depth, is parsed back from its canonical text. [erange] tells which numbers std::strtod finds out of range. *)
Theorem C35_canonical erange v : sane erange -> proper erange v -> parse erange (print v) = Ok v.
Proof. exact (canonical erange v). Qed.
Print Assumptions C35_canonical.
Example C35_canonical_case : sane never /\ proper never some_node /\ print some_node = codes "domain(-42, [1.5e3, None, []], key={""a b"": True, """": ""\nsay \""x\""\\""})".
Proof. exact (conj never_sane (conj some_proper some_print)). Qed.

(** Any layout: with white space and comments anywhere between the tokens, what is written has its value if it has one and is an error otherwise. *)
Theorem C35_layout erange r t g g' : writes (clean_number erange) r t -> gap g -> last_gap g' -> parse erange (g ++ t ++ g') = match value r with Some v => Ok v | None => Err end.
Proof. exact (parse_layout erange r t g g'). Qed.
Print Assumptions C35_layout.
Example C35_layout_case : writes (clean_number never) (as_raw some_node) (print some_node) /\ gap (codes "   ") /\ last_gap (codes "# the end").
Proof.
  split; [exact (proj1 (print_back never never_sane some_node some_proper))|]. split; [repeat (apply G_space; [reflexivity|]); constructor|].
  right. exists [], (codes " the end"). split; [reflexivity|]. split; [constructor|]. repeat constructor; discriminate.
Qed.

(** Some numbers are not read as one may expect: a float whose integer part exceeds 64 bits is refused although it is in the range of double; white
    space and a sign are accepted inside a binary number; a leading zero makes a number octal if its digits are octal, and a float otherwise. *)
Theorem C35_numbers_refuted :
  parse never (codes "100000000000000000000.0") = Err /\ parse never (codes "10000000000000000.0") = Ok (NFloat (codes "10000000000000000.0")) /\
  parse never (codes "0b -101") = Ok (NInt (-5)) /\ parse never (codes "010") = Ok (NInt 8) /\ parse never (codes "08") = Ok (NFloat (codes "08")) /\ parse never (codes "[1, 2, ]") = Err /\ parse never (codes "[1, 2] 3") = Err.
Proof. exact quirks. Qed.
Print Assumptions C35_numbers_refuted.

(** The parser ends with a value or an error for every text. *)
Theorem C36_total erange s : (exists v, parse erange s = Ok v) \/ parse erange s = Err.
Proof. exact (parse_total erange s). Qed.
Print Assumptions C36_total.
(** Whatever is accepted is, as a whole, an expression of the grammar with that value, with gaps around it. *)
Theorem C36_sound erange s v : parse erange s = Ok v -> exists g r t g', s = g ++ t ++ g' /\ gap g /\ last_gap g' /\ writes (any_number erange) r t /\ value r = Some v.
Proof. exact (parse_accepts erange s v). Qed.
Print Assumptions C36_sound.
Example C36_sound_case : parse never (codes " [1,0x1F ,""a""] # end") = Ok (NArray [NInt 1; NInt 31; NString (codes "a")]). Proof. vm_compute. reflexivity. Qed.
(** Repeated keys and keywords have no value, nor have positional arguments after keyword ones, so they are refused wherever they are. *)
Theorem C36_duplicate_key l : ~ NoDup (map fst l) -> value (RDict l) = None.
Proof. exact (duplicate_key l). Qed.
Print Assumptions C36_duplicate_key.
Theorem C36_duplicate_keyword n a m x b y c : value (RClass n (a ++ (Some m, x) :: b ++ (Some m, y) :: c)) = None.
Proof. exact (duplicate_keyword n a m x b y c). Qed.
Print Assumptions C36_duplicate_keyword.
Theorem C36_positional_after_keyword n a m x b y c : value (RClass n (a ++ (Some m, x) :: b ++ (None, y) :: c)) = None.
Proof. exact (positional_after_keyword n a m x b y c). Qed.
Print Assumptions C36_positional_after_keyword.
Example C36_refused : parse never (codes "{""a"": 1, ""a"": 2}") = Err /\ parse never (codes "f(x=1, x=2)") = Err /\ parse never (codes "f(x=1, 2)") = Err /\ parse never (codes "f(2, x=1)") = Ok (NClass (codes "f") [NInt 2] [(codes "x", NInt 1)]).
Proof. vm_compute. repeat split. Qed.
