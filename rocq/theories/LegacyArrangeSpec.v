(** How orthorhombic arrangements are written in old input files, and what they mean. *)
From Coq Require Import Reals ZArith List String.
From Verif Require Import TextModel RamsnapSpec GeomModel PbcModel OrthoModel OrthoSpec LegacyModel LegacySpec FactorySpec.
Import ListNotations.
Open Scope Z_scope.

Section Texts.
Variable scan : text -> option (R * text).
Variable stod : text -> option R.
Variable minimal : arranging -> nat -> (axis -> nat) -> text -> option vec.

(** The size of the box: the word auto, or three positive numbers without this word; what follows does not matter. *)
Definition mentions (p t : text) : Prop := exists a b, t = a ++ p ++ b.
Definition box_text (t : text) (box : option vec) : Prop :=
  match box with
  | None => exists args, headed t (str "auto") args
  | Some v => ~ mentions (str "auto") t /\ (0 < vx v)%R /\ (0 < vy v)%R /\ (0 < vz v)%R /\ exists r, numbers scan t [vx v; vy v; vz v] r
  end.

(** Words of numbers; none begins like a keyword (with a, d, p or s). *)
Definition plain (w : text) : Prop := match w with c :: _ => c <> 97 /\ c <> 100 /\ c <> 112 /\ c <> 115 | [] => True end.
Record number := Number { number_word : text; value : R }.
Record size := Size { size_word : text; amount : Z }.
Definition good_number (x : number) : Prop := numeral scan (number_word x) (value x) /\ plain (number_word x) /\ stod (number_word x) = Some (value x).
Definition good_size (k : size) : Prop :=
  word_like (size_word k) /\ plain (size_word k) /\ forall l, stops l -> extract_size (size_word k ++ l) = Some (amount k, l).

Inductive layout :=
| default_layout
| spacing_layout (x : number) (order : text) (i j k : size)
| lines_layout (i j k : size)
| cells_layout (x y z : number) (i j k : size).
(** Clinicity (true is anticlinic) with the axis and the angle; polarisation (true is antipolar) with the axis *)
Record arrangement := Arrangement { tilted : option (bool * axis * number); polarised : option (bool * axis); laid : layout }.

Definition axis_word (a : axis) : text := match a with AX => str "x" | AY => str "y" | AZ => str "z" end.
Definition tilt_words (t : option (bool * axis * number)) : list text :=
  match t with None => [] | Some (anti, a, x) => [if anti then str "anticlinic" else str "synclinic"; axis_word a; number_word x] end.
Definition polar_words (p : option (bool * axis)) : list text :=
  match p with None => [] | Some (anti, a) => [if anti then str "antipolar" else str "polar"; axis_word a] end.
Definition layout_words (l : layout) : list text :=
  match l with
  | default_layout => [str "default"]
  | spacing_layout x order i j k => [str "spacing"; number_word x; order; size_word i; size_word j; size_word k]
  | lines_layout i j k => [size_word i; size_word j; size_word k]
  | cells_layout x y z i j k => [number_word x; number_word y; number_word z; size_word i; size_word j; size_word k]
  end.
Definition words (d : arrangement) : list text := tilt_words (tilted d) ++ polar_words (polarised d) ++ layout_words (laid d).
Definition good_layout (l : layout) : Prop :=
  match l with
  | default_layout => True
  | spacing_layout x order i j k => good_number x /\ word_like order /\ plain order /\ good_size i /\ good_size j /\ good_size k
  | lines_layout i j k => good_size i /\ good_size j /\ good_size k
  | cells_layout x y z i j k => good_number x /\ good_number y /\ good_number z /\ good_size i /\ good_size j /\ good_size k
  end.
Definition good (d : arrangement) : Prop := match tilted d with Some (_, _, x) => good_number x | None => True end /\ good_layout (laid d).

(** *** The meaning *)
Definition model_of (d : arrangement) : arranging :=
  Arranging (match polarised d with None => Implicit | Some (anti, _) => if anti then Antiferro else Ferro end)
    (match polarised d with None => AX | Some (_, a) => a end)
    (match tilted d with None => Unspecified | Some (anti, _, _) => if anti then Anticlinic else Synclinic end)
    (match tilted d with None => AX | Some (_, a, _) => a end)
    (match tilted d with None => 0%R | Some (_, _, x) => value x end).
Definition numbers_of (i j k : size) (a : axis) : nat := Z.to_nat (match a with AX => amount i | AY => amount j | AZ => amount k end).
(** Numbers of rows, cells and the box *)
Definition geometry (n : nat) (box : option vec) (d : arrangement) (lines : axis -> nat) (cell b : vec) : Prop :=
  match laid d with
  | default_layout => False
  | spacing_layout x order i j k =>
    lines = numbers_of i j k /\ (0 < value x)%R /\
    exists m, minimal (model_of d) n lines order = Some m /\ (forall a, vget cell a = vget m a + value x)%R /\ (forall a, vget b a = vget cell a * INR (lines a))%R
  | lines_layout i j k => lines = numbers_of i j k /\ box = Some b /\ (forall a, vget cell a = vget b a / INR (lines a))%R
  | cells_layout x y z i j k =>
    lines = numbers_of i j k /\ (0 < value x)%R /\ (0 < value y)%R /\ (0 < value z)%R /\ cell = V3 (value x) (value y) (value z) /\
    (box = Some b \/ (box = None /\ forall a, vget b a = vget cell a * INR (lines a))%R)
  end.
Definition placed (a : arranging) (n : nat) (lines : axis -> nat) (cell box : vec) (shapes : list shape) : Prop :=
  (0 < n)%nat /\ fits lines cell box /\ layers_match a lines /\ arranged a n lines cell box shapes.
(** The same number of rows along all axes, the smallest one which is enough; cells fill the box. *)
Definition placed_by_default (a : arranging) (n : nat) (box : vec) (shapes : list shape) : Prop :=
  (0 < n)%nat /\ (forall x, 0 < vget box x)%R /\
  exists k, ((n <= k * k * k)%nat /\ (forall j, n <= j * j * j -> k <= j)%nat) /\ (polar a = Antiferro -> Nat.Even k) /\
    arranged a n (fun _ => k) (vmake (fun x => (vget box x / INR k)%R)) box shapes.
Definition means (n : nat) (box : option vec) (d : arrangement) (b : vec) (shapes : list shape) : Prop :=
  (tilted d <> None -> polarised d <> None) /\
  ((laid d = default_layout /\ box = Some b /\ placed_by_default (model_of d) n b shapes) \/
   (exists lines cell, geometry n box d lines cell b /\ (n <= sites lines)%nat /\ placed (model_of d) n lines cell b shapes)).
End Texts.
(** The text: every word after one space *)
Definition written (kind : text) (d : arrangement) : text := kind ++ flat_map (fun w => space :: w) (words d).
