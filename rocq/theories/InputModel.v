(** [src/frontend/matchers/RampackMatcher.cpp], [DynamicParameterMatcher.cpp], [MoveSamplerMatcher.cpp], [BoxScalerMatcher.cpp],
    [FileSnapshotWriterMatcher.cpp] and [SimulationRecorderFactoryMatcher.cpp]: the input file, made of matchers of MatchModel.

    Simplifications:
    - classes of shapes, arrangements, observables and bulk observables are given as functions of their arguments, in lists of any names and
      lengths ([family]);
    - objects are represented by the values they are constructed of;
    - double: real numbers; the value of a text of a float is given by [of_float];
    - an exception thrown when a value is mapped gives [ABad], which is never cast to anything, so that it spoils the result of everything
      which uses it; std::out_of_range from Version is a refusal of the version. *)
From Coq Require Import Reals ZArith List Bool Ascii String.
From Verif Require Import TextModel StringsModel GeomModel ScalingModel PyonModel MatchModel SimModel OptModel.
Import ListNotations.
Open Scope Z_scope.

Definition tx (s : string) : text := List.map (fun a => Z.of_N (N_of_ascii a)) (list_ascii_of_string s).

(** ConstantDynamicParameter, LinearDynamicParameter, ExponentialDynamicParameter, PiecewiseDynamicParameter *)
Inductive dyn := DConst (value : R) | DLinear (slope intercept : R) | DExp (a0 rate : R) | DPiecewise (pieces : list (Z * dyn)).
(** RototranslationSampler ([None]: "auto"), TranslationSampler, RotationSampler, FlipSampler *)
Inductive move := Rototranslation (trans : R) (rot : option R) (max_trans : R) | Translation (step max : R) | Rotation (step : R) | Flip (every : Z).
(** TriclinicAdapter of DeltaVolumeScaler or of AnisotropicVolumeScaler with LinearScalingFactorSampler or LogScalingFactorSampler,
    TriclinicDeltaScaler *)
Inductive scaler := DeltaV (step : R) | Linear (d : direction) (step : R) (independent : bool) | Log (d : direction) (step : R) (independent : bool)
  | DeltaTriclinic (step : R) (together : bool).
(** FileSnapshotWriter, with RamsnapWriter, WolframWriter or XYZWriter *)
Inductive writer_kind := Ramsnap | Wolfram (affine : bool) (params : list (text * text)) | Xyz.
Record writer := Writer { wr_file : text; wr_kind : writer_kind }.
(** RamtrjRecorderFactory and XYZRecorderFactory *)
Record recorder := Recorder { rc_file : text; rc_ramtrj : bool }.

Section Input.
Context {Arr Shp Obs Bulk : Type}.
Variable of_float : list Z -> R.
Definition env := @environment dyn move scaler.
(** RampackParameters.h:39-72 *)
Record integration_run := IntegrationRun {
  in_name : text; in_env : env; in_thermalization : option Z; in_averaging : option Z; in_snapshot_every : Z; in_averaging_every : Z;
  in_inline_every : Z; in_fix_every : Z; in_writers : list writer; in_ramsnap : option text; in_recorders : list recorder;
  in_ramtrj : option text; in_observables : list Obs; in_bulk : list Bulk; in_averages_out : option text; in_observables_out : option text;
  in_bulk_pattern : option text }.
Record overlap_run := OverlapRun {
  ov_name : text; ov_env : env; ov_snapshot_every : Z; ov_inline_every : Z; ov_fix_every : Z; ov_helper : option Shp;
  ov_writers : list writer; ov_ramsnap : option text; ov_recorders : list recorder; ov_ramtrj : option text; ov_observables : list Obs;
  ov_observables_out : option text }.
Inductive run := RunIntegration (r : integration_run) | RunOverlap (r : overlap_run).
Definition run_name (r : run) : text := match r with RunIntegration r => in_name r | RunOverlap r => ov_name r end.
Definition run_env (r : run) : env := match r with RunIntegration r => in_env r | RunOverlap r => ov_env r end.
(** RampackParameters.h:26-37, 74-77; [bp_threads] = [None]: OMP_MAXTHREADS *)
Record parameters := Parameters {
  bp_version : version; bp_arrangement : Arr; bp_env : env; bp_seed : Z; bp_shape : Shp; bp_walls : bool * bool * bool;
  bp_threads : option Z; bp_divisions : Z * Z * Z; bp_signals : bool; pr_runs : list run }.

(** Any *)
Inductive any :=
| ABad | ANode (n : node) | ASize (n : Z) | AOptSize (o : option Z) | AReal (x : R) | AOptReal (o : option R) | ABool (b : bool) | AText (t : text)
| AOptText (o : option text) | AVersion (v : version) | ADyn (o : option dyn) | APiece (start : Z) (d : dyn) | AMove (m : move) | AMoves (l : list move)
| ADirection (d : direction) | AScaler (o : option scaler) | ADisabled | AStyle (affine : bool) | AWriter (w : writer) | AWriters (l : list writer)
| ARecorder (r : recorder) | ARecorders (l : list recorder) | AObs (o : Obs) | AObservables (l : list Obs) | ABulk (b : Bulk) | ABulks (l : list Bulk)
| AShape (o : option Shp) | AArr (a : Arr) | ARun (r : run) | ARuns (l : list run) | AWalls (w : bool * bool * bool) | AThreads (t : option Z)
| ADivisions (d : Z * Z * Z) | AParams (p : parameters).

(** *** Any::as; [None]: bad cast *)
Definition as_size (v : any) : option Z := match v with ASize n => Some n | _ => None end.
Definition as_opt_size (v : any) : option (option Z) := match v with AOptSize o => Some o | _ => None end.
Definition as_real (v : any) : option R := match v with AReal x => Some x | _ => None end.
Definition as_opt_real (v : any) : option (option R) := match v with AOptReal o => Some o | _ => None end.
Definition as_bool (v : any) : option bool := match v with ABool b => Some b | _ => None end.
Definition as_text (v : any) : option text := match v with AText t => Some t | _ => None end.
Definition as_opt_text (v : any) : option (option text) := match v with AOptText t => Some t | _ => None end.
Definition as_version (v : any) : option version := match v with AVersion x => Some x | _ => None end.
Definition as_dyn (v : any) : option (option dyn) := match v with ADyn o => Some o | _ => None end.
Definition as_piece (v : any) : option (Z * dyn) := match v with APiece s d => Some (s, d) | _ => None end.
Definition as_move (v : any) : option move := match v with AMove m => Some m | _ => None end.
Definition as_moves (v : any) : option (list move) := match v with AMoves l => Some l | _ => None end.
Definition as_direction (v : any) : option direction := match v with ADirection d => Some d | _ => None end.
Definition as_scaler (v : any) : option (option scaler) := match v with AScaler o => Some o | _ => None end.
Definition as_style (v : any) : option bool := match v with AStyle b => Some b | _ => None end.
Definition as_writer (v : any) : option writer := match v with AWriter w => Some w | _ => None end.
Definition as_writers (v : any) : option (list writer) := match v with AWriters l => Some l | _ => None end.
Definition as_recorder (v : any) : option recorder := match v with ARecorder r => Some r | _ => None end.
Definition as_recorders (v : any) : option (list recorder) := match v with ARecorders l => Some l | _ => None end.
Definition as_obs (v : any) : option Obs := match v with AObs o => Some o | _ => None end.
Definition as_observables (v : any) : option (list Obs) := match v with AObservables l => Some l | _ => None end.
Definition as_bulk (v : any) : option Bulk := match v with ABulk b => Some b | _ => None end.
Definition as_bulks (v : any) : option (list Bulk) := match v with ABulks l => Some l | _ => None end.
Definition as_shape (v : any) : option (option Shp) := match v with AShape o => Some o | _ => None end.
Definition as_arr (v : any) : option Arr := match v with AArr a => Some a | _ => None end.
Definition as_run (v : any) : option run := match v with ARun r => Some r | _ => None end.
Definition as_runs (v : any) : option (list run) := match v with ARuns l => Some l | _ => None end.
Definition as_walls (v : any) : option (bool * bool * bool) := match v with AWalls w => Some w | _ => None end.
Definition as_threads (v : any) : option (option Z) := match v with AThreads t => Some t | _ => None end.
Definition as_divisions (v : any) : option (Z * Z * Z) := match v with ADivisions d => Some d | _ => None end.
Fixpoint as_all {A} (cast : any -> option A) (l : list any) : option (list A) :=
  match l with [] => Some [] | v :: l' => a <- cast v ;; r <- as_all cast l' ;; Some (a :: r) end.

(** *** Tools *)
Notation mt := (matcher any).
Notation cdata := (class_data any).
Definition made (o : option any) : any := match o with Some v => v | None => ABad end.
Definition truth (o : option bool) : bool := match o with Some b => b | None => false end.
(** MatcherDataclass.cpp:28-43: DataclassData::at *)
Definition get (d : cdata) (k : string) : any := match List.find (fun e => text_eqb (tx k) (fst e)) (cd_standard any d) with Some e => snd e | None => ABad end.
(** static_cast<std::size_t>(long) *)
Definition to_size (z : Z) : Z := z mod 2 ^ 64.
Definition isPositive (z : Z) : bool := 0 <? z.
Definition isNonNegative (z : Z) : bool := 0 <=? z.
Definition realPositive (x : R) : bool := Rltb 0 x.
Definition nonEmpty {A} (l : list A) : bool := match l with [] => false | _ => true end.
Definition real_m (filters : list (R -> bool)) (mapping : R -> any) : mt := match_float any R IZR of_float filters mapping.
Definition or_ (a : alternative any) (m : mt) : alternative any := or_matcher any a m.
Definition alone (m : mt) : alternative any := or_ (no_alternatives any) m.
(** MatcherDataclass.h:97-114 *)
Definition required (name : string) (m : mt) : param any := Param any (tx name) (Some m) None.
Definition optional (name : string) (m : mt) (default : node) : param any :=
  Param any (tx name) (Some m) (match mt_match any m default with Match v => Some v | _ => None end).
Definition class_m (name : string) (ps : list (param any)) (args : option (array_matcher any)) (kwargs : option (dict_matcher any)) (filters : list (cdata -> bool)) (mapping : cdata -> option any) : mt :=
  match_class any ANode (ClassMatcher any (tx name) ps args kwargs filters) (fun d => made (mapping d)).
Definition array_m (element : mt) (filters : list (list any -> bool)) (mapping : list any -> option any) : mt :=
  match_array any ANode (ArrayMatcher any (Some element) filters) (fun l => made (mapping l)).
(** What is written by somebody else: classes with their names. *)
Definition family (T : Type) := list (text * (list node -> list (text * node) -> report T)).
Definition family_m {T} (wrap : T -> any) (c : text * (list node -> list (text * node) -> report T)) : mt :=
  Matcher any (fun n => match n with NClass name pos kw => if text_eqb name (fst c) then match snd c pos kw with Match t => Match (wrap t) | NoMatch => NoMatch | Throws => Throws end else NoMatch | _ => NoMatch end)
          (ntype_eqb TClass) (Some (fst c)).
Definition family_a {T} (wrap : T -> any) (f : family T) : alternative any := fold_left or_ (map (family_m wrap) f) (no_alternatives any).

(** *** DynamicParameterMatcher.cpp *)

(** DynamicParameterMatcher.cpp:27-40 *)
Definition const_float : mt := real_m [] (fun x => ADyn (Some (DConst x))).
Definition const_class : mt := class_m "const" [required "value" (real_m [] AReal)] None None [] (fun d => x <- as_real (get d "value") ;; Some (ADyn (Some (DConst x)))).
(** DynamicParameterMatcher.cpp:42-51 *)
Definition linear_class : mt :=
  class_m "linear" [required "slope" (real_m [] AReal); optional "intercept" (real_m [] AReal) (NInt 0)] None None []
    (fun d => a <- as_real (get d "slope") ;; b <- as_real (get d "intercept") ;; Some (ADyn (Some (DLinear a b)))).
(** DynamicParameterMatcher.cpp:53-62 *)
Definition exp_class : mt :=
  class_m "exp" [required "a0" (real_m [] AReal); required "rate" (real_m [] AReal)] None None []
    (fun d => a <- as_real (get d "a0") ;; b <- as_real (get d "rate") ;; Some (ADyn (Some (DExp a b)))).
(** DynamicParameterMatcher.cpp:23-25 *)
Definition specific : alternative any := or_ (or_ (or_ (alone const_float) const_class) linear_class) exp_class.
(** DynamicParameterMatcher.cpp:67-75 *)
Definition piece_class : mt :=
  class_m "piece" [required "start" (match_int any [isNonNegative] (fun i => ASize (to_size i))); required "param" (match_alternative any specific)] None None []
    (fun d => s <- as_size (get d "start") ;; o <- as_dyn (get d "param") ;; p <- o ;; Some (APiece s p)).
(** DynamicParameterMatcher.cpp:83-93 *)
Fixpoint ascending (l : list (Z * dyn)) : bool := match l with a :: ((b :: _) as l') => negb (fst b <=? fst a) && ascending l' | _ => true end.
Definition pieces_filter (l : list (Z * dyn)) : bool := match l with [] => false | a :: _ => (fst a =? 0) && ascending l end.
(** DynamicParameterMatcher.cpp:76-99; PiecewiseDynamicParameter *)
Definition piecewise_class : mt :=
  class_m "piecewise" [] (Some (ArrayMatcher any (Some piece_class) [fun l => Nat.leb 2 (List.length l)])) None
    [fun d => truth (l <- as_all as_piece (cd_args any d) ;; Some (pieces_filter l))]
    (fun d => l <- as_all as_piece (cd_args any d) ;; Some (ADyn (Some (DPiecewise l)))).
(** DynamicParameterMatcher.cpp:103-105 *)
Definition dynamic : alternative any := or_ specific piecewise_class.

(** *** MoveSamplerMatcher.cpp *)
Definition max_step : alternative any := or_ (alone (real_m [realPositive] AReal)) (match_none any (AReal 0)).
(** MoveSamplerMatcher.cpp:22-50 *)
Definition step_limit (step max : any) : bool := truth (s <- as_real step ;; m <- as_real max ;; Some (Reqb m 0 || Rleb s m)).
Definition rot_step : alternative any :=
  or_ (alone (real_m [realPositive] (fun x => AOptReal (Some x)))) (match_string any [text_eqb (tx "auto")] (fun _ => AOptReal None)).
Definition rototranslation_class : mt :=
  class_m "rototranslation" [required "trans_step" (real_m [realPositive] AReal); optional "rot_step" (match_alternative any rot_step) (NString (tx "auto")); optional "max_trans_step" (match_alternative any max_step) NNone] None None
    [fun d => step_limit (get d "trans_step") (get d "max_trans_step")]
    (fun d => t <- as_real (get d "trans_step") ;; r <- as_opt_real (get d "rot_step") ;; m <- as_real (get d "max_trans_step") ;; Some (AMove (Rototranslation t r m))).
(** MoveSamplerMatcher.cpp:52-73 *)
Definition translation_class : mt :=
  class_m "translation" [required "step" (real_m [realPositive] AReal); optional "max_step" (match_alternative any max_step) NNone] None None
    [fun d => step_limit (get d "step") (get d "max_step")]
    (fun d => s <- as_real (get d "step") ;; m <- as_real (get d "max_step") ;; Some (AMove (Translation s m))).
(** MoveSamplerMatcher.cpp:75-82 *)
Definition rotation_class : mt := class_m "rotation" [required "step" (real_m [realPositive] AReal)] None None [] (fun d => s <- as_real (get d "step") ;; Some (AMove (Rotation s))).
(** MoveSamplerMatcher.cpp:84-91 *)
Definition flip_class : mt :=
  class_m "flip" [optional "every" (match_int any [isPositive] (fun i => ASize (to_size i))) (NInt 10)] None None [] (fun d => e <- as_size (get d "every") ;; Some (AMove (Flip e))).
(** MoveSamplerMatcher.cpp:95-97 *)
Definition move_a : alternative any := or_ (or_ (or_ (alone rototranslation_class) translation_class) rotation_class) flip_class.

(** *** BoxScalerMatcher.cpp *)

(** BoxScalerMatcher.cpp:39-58; directions are modelled in ScalingModel *)
Definition direction_m : mt := match_string any [] (fun s => made (d <- scalingDirection s ;; Some (ADirection d))).
(** BoxScalerMatcher.cpp:61-69 *)
Definition delta_v_class : mt := class_m "delta_v" [required "step" (real_m [realPositive] AReal)] None None [] (fun d => s <- as_real (get d "step") ;; Some (AScaler (Some (DeltaV s)))).
(** BoxScalerMatcher.cpp:71-88; AnisotropicVolumeScaler.cpp:81: the direction is not empty *)
Definition anisotropic_class (name : string) (make : direction -> R -> bool -> scaler) : mt :=
  class_m name [required "spec" direction_m; required "step" (real_m [realPositive] AReal); optional "scale_together" (match_bool any None ABool) (NBool true)] None None []
    (fun d => x <- as_direction (get d "spec") ;; s <- as_real (get d "step") ;; t <- as_bool (get d "scale_together") ;; if nonEmpty x then Some (AScaler (Some (make x s (negb t)))) else None).
(** BoxScalerMatcher.cpp:98-107 *)
Definition delta_triclinic_class : mt :=
  class_m "delta_triclinic" [required "step" (real_m [realPositive] AReal); optional "scale_together" (match_bool any None ABool) (NBool true)] None None []
    (fun d => s <- as_real (get d "step") ;; t <- as_bool (get d "scale_together") ;; Some (AScaler (Some (DeltaTriclinic s t)))).
(** BoxScalerMatcher.cpp:90-96, 111-113 *)
Definition scaler_a : alternative any := or_ (or_ (or_ (alone delta_v_class) (anisotropic_class "linear" Linear)) (anisotropic_class "log" Log)) delta_triclinic_class.

(** *** FileSnapshotWriterMatcher.cpp and SimulationRecorderFactoryMatcher.cpp *)
Definition filename : mt := match_string any [nonEmpty] AText.
(** FileSnapshotWriterMatcher.cpp:15-27 *)
Definition ramsnap_class : mt := class_m "ramsnap" [required "filename" filename] None None [] (fun d => f <- as_text (get d "filename") ;; Some (AWriter (Writer f Ramsnap))).
(** FileSnapshotWriterMatcher.cpp:29-48 *)
Definition style_a : alternative any :=
  or_ (alone (class_m "standard" [] None None [] (fun _ => Some (AStyle false)))) (class_m "affine_transform" [] None None [] (fun _ => Some (AStyle true))).
Definition as_entry (e : text * any) : option (text * text) := t <- as_text (snd e) ;; Some (fst e, t).
Fixpoint as_entries (l : list (text * any)) : option (list (text * text)) := match l with [] => Some [] | e :: l' => t <- as_entry e ;; r <- as_entries l' ;; Some (t :: r) end.
Definition wolfram_class : mt :=
  class_m "wolfram" [required "filename" filename; optional "style" (match_alternative any style_a) (NClass (tx "standard") [] [])] None
    (Some (DictMatcher any [] (Some (match_string any [] AText)) [])) []
    (fun d => f <- as_text (get d "filename") ;; s <- as_style (get d "style") ;; p <- as_entries (cd_kwargs any d) ;; Some (AWriter (Writer f (Wolfram s p)))).
(** FileSnapshotWriterMatcher.cpp:50-59 *)
Definition xyz_class : mt := class_m "xyz" [required "filename" filename] None None [] (fun d => f <- as_text (get d "filename") ;; Some (AWriter (Writer f Xyz))).
(** FileSnapshotWriterMatcher.cpp:63-65 *)
Definition writer_a : alternative any := or_ (or_ (alone ramsnap_class) wolfram_class) xyz_class.
(** SimulationRecorderFactoryMatcher.cpp:15-37 *)
Definition ramtrj_recorder_class : mt := class_m "ramtrj" [required "filename" filename] None None [] (fun d => f <- as_text (get d "filename") ;; Some (ARecorder (Recorder f true))).
Definition xyz_recorder_class : mt := class_m "xyz" [required "filename" filename] None None [] (fun d => f <- as_text (get d "filename") ;; Some (ARecorder (Recorder f false))).
Definition recorder_a : alternative any := or_ (alone ramtrj_recorder_class) xyz_recorder_class.

(** *** RampackMatcher.cpp *)
Variables (arrangements : family Arr) (shapes : family Shp) (observables : family Obs) (bulks : family Bulk).

(** RampackMatcher.cpp:57-60; std::isalnum in the C locale *)
Definition run_char (c : Z) : bool := is_name c.
Definition run_name_m : mt := match_string any [nonEmpty; forallb run_char] AText.
(** RampackMatcher.cpp:62-63 *)
Definition dynamic_m : mt := match_alternative any (or_alternative any (alone (match_none any (ADyn None))) dynamic).
(** RampackMatcher.cpp:65-69 *)
Definition cycles_m : mt := match_alternative any (or_ (alone (match_int any [isPositive] (fun i => AOptSize (Some (to_size i))))) (match_none any (AOptSize None))).
(** RampackMatcher.cpp:71-73 *)
Definition nullable_every : mt := match_int any [] (fun i => ASize (to_size i)).
Definition not_null_every : mt := match_int any [isPositive] (fun i => ASize (to_size i)).
(** RampackMatcher.cpp:75-79 *)
Definition out_m : mt := match_alternative any (or_ (alone (match_string any [nonEmpty] (fun s => AOptText (Some s)))) (match_none any (AOptText None))).
(** RampackMatcher.cpp:82-101, Version.h:100-105, CMakeLists.txt:2 *)
Definition current_version : version := Version 1 2 0.
Definition input_revamp_version : version := Version 0 9 0.
Definition version_m : mt :=
  match_string any [fun s => match parse_version s with Some _ => true | None => false end;
                    fun s => truth (v <- parse_version s ;; Some (version_geb v input_revamp_version && version_leb v current_version))]
               (fun s => made (v <- parse_version s ;; Some (AVersion v))).
(** RampackMatcher.cpp:103-113, 145-155 *)
Definition writers_m : mt := array_m (match_alternative any writer_a) [] (fun l => x <- as_all as_writer l ;; Some (AWriters x)).
Definition recorders_m : mt := array_m (match_alternative any recorder_a) [] (fun l => x <- as_all as_recorder l ;; Some (ARecorders x)).
Definition observables_m : mt := array_m (match_alternative any (family_a AObs observables)) [] (fun l => x <- as_all as_obs l ;; Some (AObservables x)).
Definition bulks_m : mt := array_m (match_alternative any (family_a ABulk bulks)) [] (fun l => x <- as_all as_bulk l ;; Some (ABulks x)).
(** RampackMatcher.cpp:115-131 *)
Definition is_ramsnap (w : writer) : bool := match wr_kind w with Ramsnap => true | _ => false end.
Definition fetch_ramsnap_out (l : list writer) : option text := w <- List.find is_ramsnap l ;; Some (wr_file w).
Definition fetch_ramtrj_out (l : list recorder) : option text := r <- List.find rc_ramtrj l ;; Some (rc_file r).
(** RampackMatcher.cpp:299-309 *)
Definition move_types_m : mt :=
  match_alternative any (or_ (alone (array_m (match_alternative any move_a) [nonEmpty] (fun l => x <- as_all as_move l ;; Some (AMoves x)))) (match_none any (AMoves []))).
(** RampackMatcher.cpp:311-319 *)
Definition box_scaler_m : mt :=
  match_alternative any (or_ (or_ scaler_a (class_m "disabled" [] None None [] (fun _ => Some ADisabled))) (match_none any (AScaler None))).
(** RampackMatcher.cpp:335-359 *)
Definition create_environment (d : cdata) : option env :=
  temperature <- as_dyn (get d "temperature") ;; pressure <- as_dyn (get d "pressure") ;; samplers <- as_moves (get d "move_types") ;;
  let e0 := emptyEnv in
  let e1 := match temperature with Some t => setTemperature t e0 | None => e0 end in
  let e2 := match pressure with Some p => setPressure p e1 | None => e1 end in
  e3 <- (match samplers with [] => Some e2 | _ => setMoveSamplers samplers e2 end) ;;
  match get d "box_move_type" with
  | ADisabled => Some (disableBoxScaling e3)
  | v => s <- as_scaler v ;; Some (match s with Some x => setBoxScaler x e3 | None => e3 end)
  end.
(** RampackMatcher.cpp:157-242 *)
Definition has {A} (o : option A) : bool := match o with Some _ => true | None => false end.
Definition integration_class : mt :=
  class_m "integration"
    [required "run_name" run_name_m; required "thermalization_cycles" cycles_m; required "averaging_cycles" cycles_m; required "snapshot_every" not_null_every;
     optional "temperature" dynamic_m NNone; optional "pressure" dynamic_m NNone; optional "move_types" move_types_m NNone; optional "box_move_type" box_scaler_m NNone;
     optional "averaging_every" nullable_every (NInt 0); optional "inline_info_every" not_null_every (NInt 100); optional "orientation_fix_every" not_null_every (NInt 10000);
     optional "output_last_snapshot" writers_m (NArray []); optional "record_trajectory" recorders_m (NArray []); optional "averages_out" out_m NNone;
     optional "observables" observables_m (NArray []); optional "observables_out" out_m NNone; optional "bulk_observables" bulks_m (NArray []);
     optional "bulk_observables_out_pattern" out_m NNone] None None
    [(fun d => truth (t <- as_opt_size (get d "thermalization_cycles") ;; a <- as_opt_size (get d "averaging_cycles") ;; Some (has t || has a)));
     (fun d => truth (a <- as_opt_size (get d "averaging_cycles") ;; e <- as_size (get d "averaging_every") ;; Some (negb (has a) || isPositive e)));
     (fun d => truth (a <- as_opt_size (get d "averaging_cycles") ;; o <- as_opt_text (get d "averages_out") ;; b <- as_bulks (get d "bulk_observables") ;; Some (has a || negb (has o) && negb (nonEmpty b))));
     (fun d => truth (b <- as_bulks (get d "bulk_observables") ;; p <- as_opt_text (get d "bulk_observables_out_pattern") ;; Some (negb (nonEmpty b) || has p)))]
    (fun d =>
      name <- as_text (get d "run_name") ;; e <- create_environment d ;; t <- as_opt_size (get d "thermalization_cycles") ;; a <- as_opt_size (get d "averaging_cycles") ;;
      s <- as_size (get d "snapshot_every") ;; v <- as_size (get d "averaging_every") ;; i <- as_size (get d "inline_info_every") ;; f <- as_size (get d "orientation_fix_every") ;;
      w <- as_writers (get d "output_last_snapshot") ;; r <- as_recorders (get d "record_trajectory") ;; o <- as_observables (get d "observables") ;; b <- as_bulks (get d "bulk_observables") ;;
      ao <- as_opt_text (get d "averages_out") ;; oo <- as_opt_text (get d "observables_out") ;; bo <- as_opt_text (get d "bulk_observables_out_pattern") ;;
      Some (ARun (RunIntegration (IntegrationRun name e t a s v i f w (fetch_ramsnap_out w) r (fetch_ramtrj_out r) o b ao oo bo)))).
(** RampackMatcher.cpp:244-286 *)
Definition helper_m : mt := match_alternative any (or_ (family_a (fun s => AShape (Some s)) shapes) (match_none any (AShape None))).
Definition overlap_class : mt :=
  class_m "overlap_relaxation"
    [required "run_name" run_name_m; required "snapshot_every" not_null_every; optional "temperature" dynamic_m NNone; optional "pressure" dynamic_m NNone;
     optional "move_types" move_types_m NNone; optional "box_move_type" box_scaler_m NNone; optional "inline_info_every" not_null_every (NInt 100);
     optional "orientation_fix_every" not_null_every (NInt 10000); optional "helper_shape" helper_m NNone; optional "output_last_snapshot" writers_m (NArray []);
     optional "record_trajectory" recorders_m (NArray []); optional "observables" observables_m (NArray []); optional "observables_out" out_m NNone] None None []
    (fun d =>
      name <- as_text (get d "run_name") ;; e <- create_environment d ;; s <- as_size (get d "snapshot_every") ;; i <- as_size (get d "inline_info_every") ;;
      f <- as_size (get d "orientation_fix_every") ;; h <- as_shape (get d "helper_shape") ;; w <- as_writers (get d "output_last_snapshot") ;; r <- as_recorders (get d "record_trajectory") ;;
      o <- as_observables (get d "observables") ;; oo <- as_opt_text (get d "observables_out") ;;
      Some (ARun (RunOverlap (OverlapRun name e s i f h w (fetch_ramsnap_out w) r (fetch_ramtrj_out r) o oo)))).
(** RampackMatcher.cpp:288-297 *)
Definition run_a : alternative any := or_ (alone integration_class) overlap_class.
Definition runs_m : mt := array_m (match_alternative any run_a) [nonEmpty] (fun l => x <- as_all as_run l ;; Some (ARuns x)).
(** RampackMatcher.cpp:321-328 *)
Definition threads_m : mt := match_alternative any (or_ (alone (match_string any [text_eqb (tx "max")] (fun _ => AThreads None))) (match_int any [isPositive] (fun i => AThreads (Some (to_size i))))).
(** MatcherArray(matcher, 3).mapToStdArray *)
Definition three {A} (l : list A) : option (A * A * A) := match l with [a; b; c] => Some (a, b, c) | _ => None end.
Definition size_three (l : list any) : bool := Nat.eqb (List.length l) 3.
(** RampackMatcher.cpp:330-333 *)
Definition divisions_m : mt := array_m (match_int any [isPositive] (fun i => ASize (to_size i))) [size_three] (fun l => x <- as_all as_size l ;; t <- three x ;; Some (ADivisions t)).
(** RampackMatcher.cpp:381 *)
Definition walls_m : mt := array_m (match_bool any None ABool) [size_three] (fun l => x <- as_all as_bool l ;; t <- three x ;; Some (AWalls t)).
(** RampackMatcher.cpp:380 *)
Definition seed_m : mt := match_int any [] (fun i => ASize (to_size i)).
Definition arrangement_m : mt := match_alternative any (family_a AArr arrangements).
Definition shape_m : mt := match_alternative any (family_a (fun s => AShape (Some s)) shapes).
(** std::sort and std::unique, RampackMatcher.cpp:397-408 *)
Fixpoint insert_text (t : text) (l : list text) : list text := match l with [] => [t] | u :: l' => if text_ltb u t then u :: insert_text t l' else t :: l end.
Definition sort_texts (l : list text) : list text := fold_right insert_text [] l.
Fixpoint adjacent_equal (l : list text) : bool := match l with a :: ((b :: _) as l') => text_eqb a b || adjacent_equal l' | _ => false end.
Definition unique_names (l : list run) : bool := negb (adjacent_equal (sort_texts (map run_name l))).
(** RampackMatcher.cpp:361-425 *)
Definition rampack_class : mt :=
  class_m "rampack"
    [required "version" version_m; required "arrangement" arrangement_m; required "shape" shape_m; required "seed" seed_m; required "runs" runs_m;
     optional "temperature" dynamic_m NNone; optional "pressure" dynamic_m NNone; optional "move_types" move_types_m NNone; optional "box_move_type" box_scaler_m NNone;
     optional "walls" walls_m (NArray [NBool false; NBool false; NBool false]); optional "box_move_threads" threads_m (NInt 1);
     optional "domain_divisions" divisions_m (NArray [NInt 1; NInt 1; NInt 1]); optional "handle_signals" (match_bool any None ABool) (NBool true)] None None
    [(fun d => truth (l <- as_runs (get d "runs") ;; Some (unique_names l)));
     (fun d => truth (e <- create_environment d ;; l <- as_runs (get d "runs") ;; first <- nth_error l 0 ;; Some (isComplete (combineEnv e (run_env first)))))]
    (fun d =>
      v <- as_version (get d "version") ;; a <- as_arr (get d "arrangement") ;; so <- as_shape (get d "shape") ;; s <- so ;; seed <- as_size (get d "seed") ;;
      e <- create_environment d ;; w <- as_walls (get d "walls") ;; t <- as_threads (get d "box_move_threads") ;; dd <- as_divisions (get d "domain_divisions") ;;
      b <- as_bool (get d "handle_signals") ;; r <- as_runs (get d "runs") ;;
      Some (AParams (Parameters v a e seed s w t dd b r))).
(** RampackMatcher.cpp:427-436, [None]: an exception *)
Definition read_input (erange : list Z -> bool) (expression : text) : option parameters :=
  match parse erange expression with
  | Ok n => match mt_match any rampack_class n with Match (AParams p) => Some p | _ => None end
  | _ => None
  end.
End Input.
