(** C34: lines read from the end of a stream. *)
From Coq Require Import ZArith List Bool Lia.
From Verif Require Import OptModel TextModel LinesModel LinesSpec LinesProofs.
Import ListNotations.
Open Scope Z_scope.

(** Read again and again from the end, the pieces between delimiters come in the reverse order (apart from an empty first one), each once and
    without delimiters; then the stream fails, always. *)
Theorem C34_backwards : forall d l ps k, pieces_of d l ps ->
  backwards d (length (reported ps) + k) (seek_end l) = map Some (rev (reported ps)) ++ repeat None k.
Proof. exact backwards_lines. Qed.
Print Assumptions C34_backwards.
Example C34_backwards_case : pieces_of 10 [97; 98; 10; 10; 99; 10] [[97; 98]; []; [99]; []] /\
  backwards 10 6 (seek_end [97; 98; 10; 10; 99; 10]) = [Some []; Some [99]; Some []; Some [97; 98]; None; None].
Proof.
  assert (P : pieces_of 10 [97; 98; 10; 10; 99; 10] [[97; 98]; []; [99]; []]).
  { split; [discriminate|]. split; [|reflexivity]. repeat (constructor; [repeat (constructor; [discriminate|]); constructor|]). constructor. }
  split; [exact P|]. exact (C34_backwards _ _ _ 2 P).
Qed.

(** The pieces of every text: there is exactly one way to cut it. *)
Theorem C34_pieces : forall d l, exists ps, pieces_of d l ps /\ forall qs, pieces_of d l qs -> qs = ps.
Proof. intros d l. destruct (pieces_exist d l) as [ps P]. exists ps. split; [exact P|]. intros qs Q. exact (pieces_unique d l qs ps Q P). Qed.
Print Assumptions C34_pieces.

(** An empty first line is lost. *)
Theorem C34_first_refuted : exists d l ps, pieces_of d l ps /\ forall n, ~ In (Some (hd [] ps)) (backwards d n (seek_end l)).
Proof. exact first_lost. Qed.
Print Assumptions C34_first_refuted.
