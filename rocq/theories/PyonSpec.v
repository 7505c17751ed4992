(** The grammar of PYON: how expressions are written, and which values they have. *)
From Coq Require Import ZArith List Bool.
From Verif Require Import TextModel StringsSpec PyonModel.
Import ListNotations.
Open Scope Z_scope.

(** White space and comments between tokens; the last comment of a text need not be ended by a line feed. *)
Inductive gap : list Z -> Prop :=
| G_nil : gap []
| G_space c g : is_space c = true -> gap g -> gap (c :: g)
| G_comment t g : Forall (fun c => c <> newline) t -> gap g -> gap (35 :: t ++ newline :: g).
Definition last_gap (g : list Z) : Prop := gap g \/ exists g' t, g = g' ++ 35 :: t /\ gap g' /\ Forall (fun c => c <> newline) t.

(** Names: a letter or _, then letters, digits and _. *)
Definition letter (c : Z) : Prop := 65 <= c <= 90 \/ 97 <= c <= 122 \/ c = 95.
Definition name (n : list Z) : Prop := exists c r, n = c :: r /\ letter c /\ Forall (fun x => letter x \/ 48 <= x <= 57) r.
Definition reserved (n : list Z) : Prop := n = text_True \/ n = text_False \/ n = text_None.

(** Strings between quotes: quotes and backslashes are escaped, line feeds and tabs may be. *)
Inductive escaped : list Z -> list Z -> Prop :=
| Es_nil : escaped [] []
| Es_plain c s t : c <> 34 -> c <> 92 -> escaped s t -> escaped (c :: s) (c :: t)
| Es_quote s t : escaped s t -> escaped (34 :: s) (92 :: 34 :: t)
| Es_backslash s t : escaped s t -> escaped (92 :: s) (92 :: 92 :: t)
| Es_newline s t : escaped s t -> escaped (newline :: s) (92 :: 110 :: t)
| Es_tab s t : escaped s t -> escaped (9 :: s) (92 :: 116 :: t).
Definition quoted (s t : list Z) : Prop := exists u, t = 34 :: u ++ [34] /\ escaped s u.

(** Numbers. *)
Definition worth (c v : Z) : Prop := (48 <= c <= 57 /\ v = c - 48) \/ (97 <= c <= 102 /\ v = c - 87) \/ (65 <= c <= 70 /\ v = c - 55).
Inductive written (base : Z) : list Z -> Z -> Prop :=
| Wr_nil : written base [] 0
| Wr_snoc ds n c v : written base ds n -> worth c v -> v < base -> written base (ds ++ [c]) (n * base + v).
Definition sign_text (sg : list Z) (k : Z) : Prop := (sg = [] /\ k = 1) \/ (sg = [43] /\ k = 1) \/ (sg = [45] /\ k = -1).
Definition in_range (z : Z) : Prop := - 2 ^ 63 <= z < 2 ^ 63.
Inductive int_text : Z -> list Z -> Prop :=
| I_decimal sg k c ds n : sign_text sg k -> written 10 (c :: ds) n -> c <> 48 -> in_range (k * n) -> int_text (k * n) (sg ++ c :: ds)
| I_octal sg k ds n : sign_text sg k -> written 8 (48 :: ds) n -> in_range (k * n) -> int_text (k * n) (sg ++ 48 :: ds)
| I_hex sg k x ds n : sign_text sg k -> x = 120 \/ x = 88 -> written 16 ds n -> ds <> [] -> in_range (k * n) -> int_text (k * n) (sg ++ 48 :: x :: ds)
| I_binary ds n : written 2 ds n -> ds <> [] -> in_range n -> int_text n (48 :: 98 :: ds).
(** A binary number is also accepted with white space and a sign after 0b. *)
Inductive odd_int_text : Z -> list Z -> Prop :=
| O_int z t : int_text z t -> odd_int_text z t
| O_binary w sg k ds n : spaces w -> sign_text sg k -> written 2 ds n -> ds <> [] -> in_range (k * n) -> odd_int_text (k * n) (48 :: 98 :: w ++ sg ++ ds).
Definition decimal_digits (ds : list Z) : Prop := Forall (fun c => 48 <= c <= 57) ds.
Definition hex_digits (ds : list Z) : Prop := Forall (fun c => 48 <= c <= 57 \/ 97 <= c <= 102 \/ 65 <= c <= 70) ds.
(** An exponent after one of two marks. *)
Definition exponent_text (mark mark' : Z) (e : list Z) : Prop := exists m sg k ds, e = m :: sg ++ ds /\ (m = mark \/ m = mark') /\ sign_text sg k /\ decimal_digits ds /\ ds <> [].
Definition point_text (digits : list Z -> Prop) (m : list Z) : Prop := exists a b, m = a ++ 46 :: b /\ digits a /\ digits b /\ a ++ b <> [].
Definition maybe (P : list Z -> Prop) (t : list Z) : Prop := t = [] \/ P t.
Inductive float_text : list Z -> Prop :=
| Fl_decimal sg k m e : sign_text sg k -> point_text decimal_digits m \/ (decimal_digits m /\ m <> []) -> maybe (exponent_text 101 69) e -> float_text (sg ++ m ++ e)
| Fl_hex sg k x m e : sign_text sg k -> x = 120 \/ x = 88 -> point_text hex_digits m \/ (hex_digits m /\ m <> []) -> maybe (exponent_text 112 80) e -> float_text (sg ++ 48 :: x :: m ++ e).
(** Decimal fractions and numbers with exponents, with an integer part of at most 15 digits. *)
Inductive clean_float : list Z -> Prop :=
| Cf_point sg k a b e : sign_text sg k -> decimal_digits a -> decimal_digits b -> a ++ b <> [] -> (length a <= 15)%nat -> maybe (exponent_text 101 69) e -> clean_float (sg ++ a ++ 46 :: b ++ e)
| Cf_exponent sg k a e : sign_text sg k -> decimal_digits a -> a <> [] -> (length a <= 15)%nat -> exponent_text 101 69 e -> clean_float (sg ++ a ++ e).

(** Things which are written: arguments and dictionary entries are not checked for repetitions. *)
Inductive raw :=
| RNone | RBool (b : bool) | RInt (z : Z) | RFloat (t : list Z) | RString (s : list Z)
| RArray (l : list raw) | RDict (l : list (list Z * raw)) | RClass (n : list Z) (args : list (option (list Z) * raw)).
(** Things written one after another with commas between them. *)
Inductive separated {X} (W : X -> list Z -> Prop) : list X -> list Z -> Prop :=
| Sp_one x t : W x t -> separated W [x] t
| Sp_more x t g g' xs ts : W x t -> gap g -> gap g' -> separated W xs ts -> separated W (x :: xs) (t ++ g ++ 44 :: g' ++ ts).
Inductive enclosed {X} (W : X -> list Z -> Prop) (a b : Z) : list X -> list Z -> Prop :=
| En_empty g : gap g -> enclosed W a b [] (a :: g ++ [b])
| En_some xs g t g' : gap g -> separated W xs t -> gap g' -> enclosed W a b xs (a :: g ++ t ++ g' ++ [b]).
Inductive entry (W : raw -> list Z -> Prop) : list Z * raw -> list Z -> Prop :=
| Ent k q g g' r t : quoted k q -> gap g -> gap g' -> W r t -> entry W (k, r) (q ++ g ++ 58 :: g' ++ t).
Inductive arg (W : raw -> list Z -> Prop) : option (list Z) * raw -> list Z -> Prop :=
| Arg_positional r t : W r t -> arg W (None, r) t
| Arg_keyword n g g' r t : name n -> gap g -> gap g' -> W r t -> arg W (Some n, r) (n ++ g ++ 61 :: g' ++ t).
(** [num]: how numbers are written. *)
Inductive writes (num : raw -> list Z -> Prop) : raw -> list Z -> Prop :=
| W_none : writes num RNone text_None
| W_true : writes num (RBool true) text_True
| W_false : writes num (RBool false) text_False
| W_int z t : num (RInt z) t -> writes num (RInt z) t
| W_float u t : num (RFloat u) t -> writes num (RFloat u) t
| W_string s t : quoted s t -> writes num (RString s) t
| W_array l t : enclosed (writes num) 91 93 l t -> writes num (RArray l) t
| W_dict l t : enclosed (entry (writes num)) 123 125 l t -> writes num (RDict l) t
| W_class n : name n -> ~ reserved n -> writes num (RClass n []) n
| W_args n g l t : name n -> ~ reserved n -> gap g -> enclosed (arg (writes num)) 40 41 l t -> writes num (RClass n l) (n ++ g ++ t).
(** Numbers which are surely accepted, numbers which may be accepted. *)
Definition clean_number (erange : list Z -> bool) (r : raw) (t : list Z) : Prop :=
  match r with
  | RInt z => int_text z t /\ forall u v, t = u ++ v -> erange u = false
  | RFloat u => u = t /\ clean_float t /\ erange t = false
  | _ => False
  end.
Definition any_number (erange : list Z -> bool) (r : raw) (t : list Z) : Prop :=
  match r with RInt z => odd_int_text z t | RFloat u => u = t /\ float_text t /\ erange t = false | _ => False end.

(** Values. *)
Fixpoint all {A} (l : list (option A)) : option (list A) :=
  match l with [] => Some [] | Some a :: l' => option_map (cons a) (all l') | None :: _ => None end.
Fixpoint distinct (ks : list (list Z)) : bool := match ks with [] => true | k :: ks' => negb (existsb (text_eqb k) ks') && distinct ks' end.
(** Keyword arguments only. *)
Fixpoint keywords (l : list (option (list Z) * node)) : option (list (list Z * node)) :=
  match l with [] => Some [] | (Some n, v) :: l' => option_map (cons (n, v)) (keywords l') | (None, _) :: _ => None end.
(** Positional arguments, then keyword ones. *)
Fixpoint bind_args (l : list (option (list Z) * node)) : option (list node * list (list Z * node)) :=
  match l with
  | (None, v) :: l' => option_map (fun q => (v :: fst q, snd q)) (bind_args l')
  | _ => match keywords l with Some kw => if distinct (map fst kw) then Some ([], kw) else None | None => None end
  end.
Fixpoint value (r : raw) : option node :=
  match r with
  | RNone => Some NNone | RBool b => Some (NBool b) | RInt z => Some (NInt z) | RFloat t => Some (NFloat t) | RString s => Some (NString s)
  | RArray l => option_map NArray (all (map value l))
  | RDict l =>
    match all (map (fun e => match e with (k, r) => option_map (pair k) (value r) end) l) with
    | Some d => if distinct (map fst d) then Some (NDict d) else None
    | None => None
    end
  | RClass n l =>
    match all (map (fun e => match e with (k, r) => option_map (pair k) (value r) end) l) with
    | Some d => option_map (fun q => NClass n (fst q) (snd q)) (bind_args d)
    | None => None
    end
  end.
