(** What may be written in an input file, and what it means. *)
From Coq Require Import Reals ZArith List Bool Sorted String.
From Verif Require Import TextModel StringsModel StringsSpec ScalingModel PyonModel MatchModel SimModel SimSpec InputModel.
Import ListNotations.
Open Scope Z_scope.

(** Things which the parser gives: integers fit in 64 bits, keywords are not repeated. *)
Inductive regular : node -> Prop :=
| Reg_none : regular NNone
| Reg_bool b : regular (NBool b)
| Reg_int i : - 2 ^ 63 <= i < 2 ^ 63 -> regular (NInt i)
| Reg_float t : regular (NFloat t)
| Reg_string s : regular (NString s)
| Reg_array l : Forall regular l -> regular (NArray l)
| Reg_dict l : NoDup (map fst l) -> Forall (fun e => regular (snd e)) l -> regular (NDict l)
| Reg_class k pos kw : Forall regular pos -> NoDup (map fst kw) -> Forall (fun e => regular (snd e)) kw -> regular (NClass k pos kw).

(** *** Calls, as in Python *)

(** The argument which is given for a parameter: by its position or by its name. *)
Definition keyword (kw : list (text * node)) (k : text) : option node := option_map snd (List.find (fun e => text_eqb k (fst e)) kw).
Fixpoint given (names : list text) (pos : list node) (kw : list (text * node)) (k : text) : option node :=
  match names with
  | [] => None
  | name :: names' => if text_eqb k name then match pos with n :: _ => Some n | [] => keyword kw k end else given names' (tl pos) kw k
  end.
(** Names of parameters; [true]: it has to be given. *)
Definition signature := list (string * bool).
Definition names (s : signature) : list text := map (fun e => tx (fst e)) s.
(** There are not too many arguments, none is given twice, none is missing; [more]: unknown keywords are allowed, too. *)
Record call (more : bool) (s : signature) (pos : list node) (kw : list (text * node)) : Prop := {
  call_few : (List.length pos <= List.length s)%nat;
  call_known : more = false -> forall k, In k (map fst kw) -> In k (names s);
  call_once : forall i k, (i < List.length pos)%nat -> nth_error (names s) i = Some k -> ~ In k (map fst kw);
  call_required : forall k, In (k, true) s -> given (names s) pos kw (tx k) <> None }.
(** An object of a class, with its arguments. *)
Definition object (n : node) (class : string) (s : signature) (a : string -> option node) : Prop :=
  exists pos kw, n = NClass (tx class) pos kw /\ call false s pos kw /\ forall k, a k = given (names s) pos kw (tx k).
(** A value which has to be given, and one with a default. *)
Definition arg {A} (a : string -> option node) (k : string) (P : node -> A -> Prop) (x : A) : Prop := exists n, a k = Some n /\ P n x.
Definition arg_or {A} (a : string -> option node) (k : string) (P : node -> A -> Prop) (default x : A) : Prop := match a k with Some n => P n x | None => x = default end.

(** *** Values *)
Section Spec.
Context {Arr Shp Obs Bulk : Type}.
Variable of_float : list Z -> R.
Definition num (n : node) (x : R) : Prop := (exists i, n = NInt i /\ x = IZR i) \/ (exists t, n = NFloat t /\ x = of_float t).
Definition positive_num (n : node) (x : R) : Prop := num n x /\ (0 < x)%R.
Definition count (n : node) (i : Z) : Prop := n = NInt i /\ 0 < i.
(** A negative number is taken modulo 2^64. *)
Definition wrapped (n : node) (i : Z) : Prop := exists z, n = NInt z /\ i = z mod 2 ^ 64.
Definition yes_no (n : node) (b : bool) : Prop := n = NBool b.
Definition some_text (n : node) (t : text) : Prop := n = NString t /\ t <> [].
Definition or_none {A} (P : node -> A -> Prop) (n : node) (o : option A) : Prop := match o with Some x => P n x | None => n = NNone end.
Definition list_of {A} (P : node -> A -> Prop) (n : node) (l : list A) : Prop := exists ns, n = NArray ns /\ Forall2 P ns l.
Definition three_of {A} (P : node -> A -> Prop) (n : node) (t : A * A * A) : Prop := exists a b c, n = NArray [a; b; c] /\ P a (fst (fst t)) /\ P b (snd (fst t)) /\ P c (snd t).

(** *** Dynamic parameters *)
Inductive simple : node -> dyn -> Prop :=
| S_number n x : num n x -> simple n (DConst x)
| S_const n a x : object n "const" [("value", true)]%string a -> arg a "value" num x -> simple n (DConst x)
| S_linear n a s i : object n "linear" [("slope", true); ("intercept", false)]%string a -> arg a "slope" num s -> arg_or a "intercept" num 0%R i -> simple n (DLinear s i)
| S_exp n a b r : object n "exp" [("a0", true); ("rate", true)]%string a -> arg a "a0" num b -> arg a "rate" num r -> simple n (DExp b r).
Definition piece (n : node) (p : Z * dyn) : Prop :=
  exists a, object n "piece" [("start", true); ("param", true)]%string a /\ arg a "start" (fun m i => m = NInt i /\ 0 <= i) (fst p) /\ arg a "param" simple (snd p).
(** At least two pieces; the first one begins with cycle 0, the next ones later and later. *)
Definition parameter (n : node) (d : dyn) : Prop :=
  simple n d \/
  exists ns l, n = NClass (tx "piecewise") ns [] /\ d = DPiecewise l /\ Forall2 piece ns l /\ (2 <= List.length l)%nat /\ nth_error (map fst l) 0 = Some 0 /\ StronglySorted Z.lt (map fst l).

(** *** Moves; the limit 0 means that there is none *)
Definition limit (n : node) (m : R) : Prop := (n = NNone /\ m = 0%R) \/ positive_num n m.
Definition angle (n : node) (o : option R) : Prop := match o with Some x => positive_num n x | None => n = NString (tx "auto") end.
Definition within (step max : R) : Prop := max = 0%R \/ (step <= max)%R.
Inductive moves : node -> move -> Prop :=
| M_rototranslation n a t r m : object n "rototranslation" [("trans_step", true); ("rot_step", false); ("max_trans_step", false)]%string a ->
    arg a "trans_step" positive_num t -> arg_or a "rot_step" angle None r -> arg_or a "max_trans_step" limit 0%R m -> within t m -> moves n (Rototranslation t r m)
| M_translation n a s m : object n "translation" [("step", true); ("max_step", false)]%string a ->
    arg a "step" positive_num s -> arg_or a "max_step" limit 0%R m -> within s m -> moves n (Translation s m)
| M_rotation n a s : object n "rotation" [("step", true)]%string a -> arg a "step" positive_num s -> moves n (Rotation s)
| M_flip n a e : object n "flip" [("every", false)]%string a -> arg_or a "every" count 10 e -> moves n (Flip e).

(** *** Box moves; texts of directions are C50 *)
Definition directions (n : node) (d : direction) : Prop := exists s, n = NString s /\ scalingDirection s = Some d.
Definition anisotropic_sig : signature := [("spec", true); ("step", true); ("scale_together", false)]%string.
Inductive box_moves : node -> scaler -> Prop :=
| B_delta_v n a s : object n "delta_v" [("step", true)]%string a -> arg a "step" positive_num s -> box_moves n (DeltaV s)
| B_linear n a d s t : object n "linear" anisotropic_sig a -> arg a "spec" directions d -> d <> [] -> arg a "step" positive_num s -> arg_or a "scale_together" yes_no true t -> box_moves n (Linear d s (negb t))
| B_log n a d s t : object n "log" anisotropic_sig a -> arg a "spec" directions d -> d <> [] -> arg a "step" positive_num s -> arg_or a "scale_together" yes_no true t -> box_moves n (Log d s (negb t))
| B_triclinic n a s t : object n "delta_triclinic" [("step", true); ("scale_together", false)]%string a -> arg a "step" positive_num s -> arg_or a "scale_together" yes_no true t -> box_moves n (DeltaTriclinic s t).
Definition status (n : node) (s : @scaler_status scaler) : Prop :=
  match s with ScalerUnset => n = NNone | ScalerDisabled => n = NClass (tx "disabled") [] [] | ScalerSet x => box_moves n x end.

(** *** Files *)
Definition file_sig : signature := [("filename", true)]%string.
Definition style (n : node) (affine : bool) : Prop := n = NClass (tx (if affine then "affine_transform" else "standard")) [] [].
Definition wolfram_sig : signature := [("filename", true); ("style", false)]%string.
Inductive writes : node -> writer -> Prop :=
| W_ramsnap n a f : object n "ramsnap" file_sig a -> arg a "filename" some_text f -> writes n (Writer f Ramsnap)
| W_xyz n a f : object n "xyz" file_sig a -> arg a "filename" some_text f -> writes n (Writer f Xyz)
| W_wolfram pos kw f s p a : call true wolfram_sig pos kw -> (forall k, a k = given (names wolfram_sig) pos kw (tx k)) -> arg a "filename" some_text f -> arg_or a "style" style false s ->
    (** the other arguments are texts *)
    StronglySorted (fun x y => text_ltb (fst x) (fst y) = true) p ->
    (forall k n, In (k, n) kw -> ~ In k (names wolfram_sig) -> exists t, n = NString t /\ In (k, t) p) ->
    (forall k t, In (k, t) p -> ~ In k (names wolfram_sig) /\ In (k, NString t) kw) ->
    writes (NClass (tx "wolfram") pos kw) (Writer f (Wolfram s p)).
Inductive records : node -> recorder -> Prop :=
| R_ramtrj n a f : object n "ramtrj" file_sig a -> arg a "filename" some_text f -> records n (Recorder f true)
| R_xyz n a f : object n "xyz" file_sig a -> arg a "filename" some_text f -> records n (Recorder f false).
(** The first file of the format, if any. *)
Definition first_file {A} (is : A -> Prop) (file : A -> text) (l : list A) (o : option text) : Prop :=
  match o with
  | Some f => exists p x q, l = p ++ x :: q /\ Forall (fun y => ~ is y) p /\ is x /\ f = file x
  | None => Forall (fun y => ~ is y) l
  end.

(** *** Classes given from outside: the first one of the name which accepts the arguments *)
Definition member {T} (f : family T) (n : node) (t : T) : Prop :=
  exists k pos kw p c q, n = NClass k pos kw /\ f = p ++ c :: q /\ fst c = k /\ snd c pos kw = Match t /\ Forall (fun d => fst d = k -> snd d pos kw = NoMatch) p.

(** *** Runs *)
Notation env := (@environment dyn move scaler).
(** What is not given is left unset. *)
Record written_env (a : string -> option node) (e : env) : Prop := {
  we_temperature : arg_or a "temperature" (or_none parameter) None (ev_temperature e);
  we_pressure : arg_or a "pressure" (or_none parameter) None (ev_pressure e);
  we_moves : arg_or a "move_types" (fun n l => (n = NNone /\ l = []) \/ (list_of moves n l /\ l <> [])) [] (ev_samplers e);
  we_box : arg_or a "box_move_type" status ScalerUnset (ev_scaler e) }.
Definition word_char (c : Z) : Prop := 48 <= c <= 57 \/ 65 <= c <= 90 \/ 97 <= c <= 122 \/ c = 95.
Definition run_word (n : node) (t : text) : Prop := n = NString t /\ t <> [] /\ Forall word_char t.
Definition ramsnap_file (l : list writer) (o : option text) : Prop := first_file (fun w => wr_kind w = Ramsnap) wr_file l o.
Definition ramtrj_file (l : list recorder) (o : option text) : Prop := first_file (fun r => rc_ramtrj r = true) rc_file l o.
Definition file_or_none : node -> option text -> Prop := or_none some_text.
Variables (arrangements : family Arr) (shapes : family Shp) (observables : family Obs) (bulks : family Bulk).
Definition integration_sig : signature :=
  [("run_name", true); ("thermalization_cycles", true); ("averaging_cycles", true); ("snapshot_every", true); ("temperature", false); ("pressure", false);
   ("move_types", false); ("box_move_type", false); ("averaging_every", false); ("inline_info_every", false); ("orientation_fix_every", false);
   ("output_last_snapshot", false); ("record_trajectory", false); ("averages_out", false); ("observables", false); ("observables_out", false);
   ("bulk_observables", false); ("bulk_observables_out_pattern", false)]%string.
Record integration_args (a : string -> option node) (r : @integration_run Obs Bulk) : Prop := {
  ia_name : arg a "run_name" run_word (in_name r);
  ia_env : written_env a (in_env r);
  ia_thermalization : arg a "thermalization_cycles" (or_none count) (in_thermalization r);
  ia_averaging : arg a "averaging_cycles" (or_none count) (in_averaging r);
  ia_snapshot_every : arg a "snapshot_every" count (in_snapshot_every r);
  ia_averaging_every : arg_or a "averaging_every" wrapped 0 (in_averaging_every r);
  ia_inline_every : arg_or a "inline_info_every" count 100 (in_inline_every r);
  ia_fix_every : arg_or a "orientation_fix_every" count 10000 (in_fix_every r);
  ia_writers : arg_or a "output_last_snapshot" (list_of writes) [] (in_writers r);
  ia_recorders : arg_or a "record_trajectory" (list_of records) [] (in_recorders r);
  ia_observables : arg_or a "observables" (list_of (member observables)) [] (in_observables r);
  ia_bulk : arg_or a "bulk_observables" (list_of (member bulks)) [] (in_bulk r);
  ia_averages_out : arg_or a "averages_out" file_or_none None (in_averages_out r);
  ia_observables_out : arg_or a "observables_out" file_or_none None (in_observables_out r);
  ia_bulk_pattern : arg_or a "bulk_observables_out_pattern" file_or_none None (in_bulk_pattern r);
  (** files by which a run is continued *)
  ia_ramsnap : ramsnap_file (in_writers r) (in_ramsnap r);
  ia_ramtrj : ramtrj_file (in_recorders r) (in_ramtrj r);
  (** what has to go together *)
  ia_something : in_thermalization r <> None \/ in_averaging r <> None;
  ia_sampled : in_averaging r <> None -> 0 < in_averaging_every r;
  ia_averaged : in_averaging r = None -> in_averages_out r = None /\ in_bulk r = [];
  ia_stored : in_bulk r <> [] -> in_bulk_pattern r <> None }.
Definition overlap_sig : signature :=
  [("run_name", true); ("snapshot_every", true); ("temperature", false); ("pressure", false); ("move_types", false); ("box_move_type", false);
   ("inline_info_every", false); ("orientation_fix_every", false); ("helper_shape", false); ("output_last_snapshot", false); ("record_trajectory", false);
   ("observables", false); ("observables_out", false)]%string.
Record overlap_args (a : string -> option node) (r : @overlap_run Shp Obs) : Prop := {
  oa_name : arg a "run_name" run_word (ov_name r);
  oa_env : written_env a (ov_env r);
  oa_snapshot_every : arg a "snapshot_every" count (ov_snapshot_every r);
  oa_inline_every : arg_or a "inline_info_every" count 100 (ov_inline_every r);
  oa_fix_every : arg_or a "orientation_fix_every" count 10000 (ov_fix_every r);
  oa_helper : arg_or a "helper_shape" (or_none (member shapes)) None (ov_helper r);
  oa_writers : arg_or a "output_last_snapshot" (list_of writes) [] (ov_writers r);
  oa_recorders : arg_or a "record_trajectory" (list_of records) [] (ov_recorders r);
  oa_observables : arg_or a "observables" (list_of (member observables)) [] (ov_observables r);
  oa_observables_out : arg_or a "observables_out" file_or_none None (ov_observables_out r);
  oa_ramsnap : ramsnap_file (ov_writers r) (ov_ramsnap r);
  oa_ramtrj : ramtrj_file (ov_recorders r) (ov_ramtrj r) }.
Definition runs (n : node) (r : @run Shp Obs Bulk) : Prop :=
  match r with
  | RunIntegration r => exists a, object n "integration" integration_sig a /\ integration_args a r
  | RunOverlap r => exists a, object n "overlap_relaxation" overlap_sig a /\ overlap_args a r
  end.

(** *** The whole input *)
Definition release (n : node) (v : version) : Prop := exists s, n = NString s /\ parse_version s = Some v /\ ~ older v (Version 0 9 0) /\ ~ older (Version 1 2 0) v.
Definition threads (n : node) (o : option Z) : Prop := match o with Some i => count n i | None => n = NString (tx "max") end.
Definition rampack_sig : signature :=
  [("version", true); ("arrangement", true); ("shape", true); ("seed", true); ("runs", true); ("temperature", false); ("pressure", false); ("move_types", false);
   ("box_move_type", false); ("walls", false); ("box_move_threads", false); ("domain_divisions", false); ("handle_signals", false)]%string.
Record input_args (a : string -> option node) (p : @parameters Arr Shp Obs Bulk) : Prop := {
  pa_version : arg a "version" release (bp_version p);
  pa_arrangement : arg a "arrangement" (member arrangements) (bp_arrangement p);
  pa_shape : arg a "shape" (member shapes) (bp_shape p);
  pa_seed : arg a "seed" wrapped (bp_seed p);
  pa_runs : arg a "runs" (list_of runs) (pr_runs p);
  pa_env : written_env a (bp_env p);
  pa_walls : arg_or a "walls" (three_of yes_no) (false, false, false) (bp_walls p);
  pa_threads : arg_or a "box_move_threads" threads (Some 1) (bp_threads p);
  pa_divisions : arg_or a "domain_divisions" (three_of count) (1, 1, 1) (bp_divisions p);
  pa_signals : arg_or a "handle_signals" yes_no true (bp_signals p);
  pa_names : NoDup (map run_name (pr_runs p));
  (** there is a first run, and everything it needs is given by it or by the base environment *)
  pa_complete : exists r e, nth_error (pr_runs p) 0 = Some r /\ last_one_wins [bp_env p; run_env r] e /\ complete e }.
Definition input (n : node) (p : @parameters Arr Shp Obs Bulk) : Prop := exists a, object n "rampack" rampack_sig a /\ input_args a p.
End Spec.
