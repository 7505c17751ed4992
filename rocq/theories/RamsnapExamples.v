(** A small number format, and files in it. *)
From Coq Require Import ZArith List Bool Lia.
From Verif Require Import OptModel TextModel TextProofs RamsnapModel RamsnapSpec.
Import ListNotations.
Open Scope Z_scope.

(** Numbers 0 and 1. *)
Definition bit_show (b : bool) : list Z := if b then [49] else [48].
Definition bit_scan (l : list Z) : option (bool * list Z) :=
  match skip_ws l with 49 :: r => Some (true, r) | 48 :: r => Some (false, r) | _ => None end.
Definition bit_volume (box : list bool) : bool := match box with [a; _; _; _; b; _; _; _; c] => a && b && c | _ => false end.
Definition unit_bits : list bool := [true; false; false; false; true; false; false; false; true].

Lemma bit_codec : exact_codec bit_show bit_scan.
Proof.
  split; [intros []; discriminate|]. split; [intros []; repeat constructor|]. split; [intros [] l _; reflexivity|].
  split; [|reflexivity]. intros c l H. unfold bit_scan. cbn [skip_ws]. rewrite H. reflexivity.
Qed.
(** cycles 7, step.x 0.5 1 *)
Definition some_map : list (list Z * list Z) := [([99; 121; 99], [55]); ([115; 46; 120], [48; 46; 53; 32; 49])].
Lemma some_map_clean : clean_map some_map.
Proof.
  split; [discriminate|]. split; [split; [reflexivity|exact I]|]. split; [|reflexivity].
  constructor; [split; [split; [discriminate|repeat constructor]|split; [exists 55, []; auto|constructor; [discriminate|constructor]]]|].
  constructor; [|constructor]. split; [split; [discriminate|repeat constructor]|]. split; [exists 48, [46; 53; 32; 49]; auto|]. repeat (constructor; [discriminate|]). constructor.
Qed.
Definition some_shapes : list (list bool * list bool) := [([true; false; true], unit_bits); ([false; false; true], unit_bits)].
Lemma some_packing_clean : clean_packing unit_bits some_shapes.
Proof. split; [reflexivity|]. split; [|reflexivity]. constructor; [split; reflexivity|]. constructor; [split; reflexivity|constructor]. Qed.
