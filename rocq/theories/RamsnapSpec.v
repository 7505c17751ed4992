(** What can be stored in a RAMSNAP file. *)
From Coq Require Import ZArith List Bool.
From Verif Require Import OptModel TextModel.
Import ListNotations.
Open Scope Z_scope.

(** Numbers are printed without white space, and what is printed is scanned back to the last bit. *)
Definition stops (l : list Z) : Prop := match l with c :: _ => is_space c = true | [] => True end.
Definition exact_codec {D} (show : D -> list Z) (scan : list Z -> option (D * list Z)) : Prop :=
  (forall d, show d <> []) /\ (forall d, Forall (fun c => is_space c = false) (show d)) /\
  (forall d l, stops l -> scan (show d ++ l) = Some (d, l)) /\
  (forall c l, is_space c = true -> scan (c :: l) = scan l) /\ scan [] = None.

(** Pairs of a std::map, ordered by keys. *)
Fixpoint ordered_map {A} (m : list (list Z * A)) : Prop :=
  match m with (k, _) :: ((k', _) :: _) as m' => text_ltb k k' = true /\ ordered_map m' | _ => True end.
Definition word_like (k : list Z) : Prop := k <> [] /\ Forall (fun c => is_space c = false) k.
(** A value which starts with a visible character and is one line. *)
Definition line_like (v : list Z) : Prop := (exists c r, v = c :: r /\ is_space c = false) /\ Forall (fun c => c <> newline) v.
Definition clean_map (m : list (list Z * list Z)) : Prop :=
  m <> [] /\ ordered_map m /\ Forall (fun e => word_like (fst e) /\ line_like (snd e)) m /\ Z.of_nat (length m) < 2 ^ 64.
Definition clean_packing {D} (box : list D) (ss : list (list D * list D)) : Prop :=
  length box = 9%nat /\ Forall (fun s => length (fst s) = 3%nat /\ length (snd s) = 9%nat) ss /\ Z.of_nat (length ss) < 2 ^ 64.
