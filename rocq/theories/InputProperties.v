(** C77: input files. *)
From Coq Require Import Reals ZArith List String.
From Verif Require Import TextModel StringsModel PyonModel MatchModel SimModel SimSpec InputModel InputSpec InputRunProofs InputExamples.
From Verif Require DynModel.
Import ListNotations.
Open Scope Z_scope.

(** Which texts are accepted and what is read of them. *)
Theorem C77_read {Arr Shp Obs Bulk : Type} (of_float : list Z -> R) (arrangements : family Arr) (shapes : family Shp) (observables : family Obs) (bulks : family Bulk) erange s p :
  read_input of_float arrangements shapes observables bulks erange s = Some p <-> exists n, parse erange s = Ok n /\ input of_float arrangements shapes observables bulks n p.
Proof. exact (read_iff of_float arrangements shapes observables bulks erange s p). Qed.
Print Assumptions C77_read.
Example C77_read_case of_float : parse (fun _ => false) sample_text = Ok sample /\ input of_float lattices balls no_one no_one sample result.
Proof. exact (conj sample_parsed (sample_ok of_float)). Qed.

(** The first run of an accepted input can be started, afresh or as a continuation. *)
Theorem C77_started {Arr Shp Obs Bulk : Type} (of_float : list Z -> R) (arrangements : family Arr) (shapes : family Shp) (observables : family Obs) (bulks : family Bulk) n p cont :
  input of_float arrangements shapes observables bulks n p -> exists l, casino_environments (bp_env p) (map run_env (pr_runs p)) 0 cont = Some l.
Proof. exact (started of_float arrangements shapes observables bulks n p cont). Qed.
Print Assumptions C77_started.
Example C77_started_case of_float : input of_float lattices balls no_one no_one sample result.
Proof. exact (sample_ok of_float). Qed.

(** Accepted pieces can be built, whatever is in them. *)
Theorem C77_pieces of_float n l (f : dyn -> DynModel.parameter) : parameter of_float n (DPiecewise l) -> DynModel.piecewise (map (fun x => (fst x, f (snd x))) l) <> None.
Proof. exact (pieces_built of_float n l f). Qed.
Print Assumptions C77_pieces.
Example C77_pieces_case of_float : parameter of_float (cl "piecewise" [cl "piece" [NInt 0; NInt 5] []; cl "piece" [NInt 7; NInt 6] []] []) (DPiecewise [(0, DConst 5); (7, DConst 6)]).
Proof. exact (two_pieces of_float). Qed.

(** The environments of later runs are not checked. *)
Theorem C77_later_run_refuted of_float :
  ~ (forall n p, input of_float lattices balls no_one no_one n p -> forall k r e, nth_error (pr_runs p) k = Some r -> last_one_wins (bp_env p :: map run_env (firstn (S k) (pr_runs p))) e -> complete e).
Proof. exact (second_incomplete of_float). Qed.
Print Assumptions C77_later_run_refuted.

(** A negative period of averaging is accepted, and then nothing is averaged. *)
Theorem C77_averaging_every_refuted of_float :
  ~ (forall n p, input of_float lattices balls no_one no_one n p -> forall r, In (RunIntegration r) (pr_runs p) -> forall m, in_averaging r = Some m -> 0 < in_averaging_every r <= m).
Proof. exact (never_averaged of_float). Qed.
Print Assumptions C77_averaging_every_refuted.

(** A version is never an array. *)
Theorem C77_array_version_refuted {Arr Shp Obs Bulk : Type} (of_float : list Z -> R) (arrangements : family Arr) (shapes : family Shp) (observables : family Obs) (bulks : family Bulk) kw l p :
  In (tx "version", NArray l) kw -> regular (NClass (tx "rampack") [] kw) -> ~ input of_float arrangements shapes observables bulks (NClass (tx "rampack") [] kw) p.
Proof. exact (array_version of_float arrangements shapes observables bulks kw l p). Qed.
Print Assumptions C77_array_version_refuted.
Example C77_array_version_refuted_case : In (tx "version", NArray [NInt 1; NInt 0; NInt 0]) [(tx "version", NArray [NInt 1; NInt 0; NInt 0])] /\ regular (NClass (tx "rampack") [] [(tx "version", NArray [NInt 1; NInt 0; NInt 0])]).
Proof. exact array_version_case. Qed.

(** One piece is not enough. *)
Theorem C77_single_piece_refuted of_float m d : ~ parameter of_float (NClass (tx "piecewise") [m] []) d.
Proof. exact (single_piece of_float m d). Qed.
Print Assumptions C77_single_piece_refuted.
