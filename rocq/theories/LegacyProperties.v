(** C82: shapes and commands in old input files. *)
From Coq Require Import Reals ZArith List String.
From Verif Require Import TextModel StringsSpec RamsnapSpec ConfigModel GeomModel GeoModel XcModel LegacyModel LegacySpec LegacyProofs LegacyCommandProofs LegacyShapeProofs LegacyFinalProofs LegacyExamples.
Import ListNotations.
Open Scope Z_scope.

(** Texts are cut into words. *)
Theorem C82_words t ws : tokenize_words t = Some ws <-> words_of t ws.
Proof. exact (tokenize_words_iff t ws). Qed.
Print Assumptions C82_words.
Example C82_words_case : words_of spoilt_text (flat_map (fun s => fst s :: snd s) common_sections ++ str "spheres" :: spoilt_words).
Proof. exact spoilt_tokens. Qed.

(** All words can be divided into fields, *)
Theorem C82_layout fields tokens : exists lead sections, laid_out fields tokens lead sections.
Proof. exact (layout_exists fields tokens). Qed.
Print Assumptions C82_layout.

(** and the fields are found: with all the words of the value, in order; or nothing is returned if a field comes twice, or if there are words which belong to no field. *)
Theorem C82_fields fields tokens lead sections : Forall word_like tokens -> laid_out fields tokens lead sections ->
  (allowed fields lead sections -> exists m, parseFields fields tokens = Some m /\ forall k v, lookup k m = Some v <-> In (k, v) (contents lead sections)) /\
  (~ allowed fields lead sections -> parseFields fields tokens = None).
Proof. exact (fields_spec fields tokens lead sections). Qed.
Print Assumptions C82_fields.
Example C82_fields_case : let tokens := map str ["1"; "2"; "b"; "3"; "a"]%string in let fields := [[]; str "a"; str "b"] in
  laid_out fields tokens (map str ["1"; "2"]%string) [(str "b", [str "3"]); (str "a", [])] /\ parseFields fields tokens = Some [([], str "1 2"); (str "a", []); (str "b", str "3")].
Proof.
  cbv zeta. split; [|reflexivity]. constructor; [reflexivity| |].
  - repeat (constructor; [intros I; cbn in I; repeat destruct I as [I|I]; try discriminate I; exact I|]). constructor.
  - constructor; [split; [cbn; auto|constructor; [intros I; cbn in I; repeat destruct I as [I|I]; try discriminate I; exact I|constructor]]|]. constructor; [split; [cbn; auto|constructor]|constructor].
Qed.

(** Which texts are commands, and what they do. *)
Theorem C82_command scan t c : read_command scan t = Some c <-> command_text scan t c.
Proof. exact (command_iff scan t c). Qed.
Print Assumptions C82_command.
Theorem C82_processed scan t s : (forall c, command_text scan t c -> processCommand scan t s = run_command c s) /\ ((forall c, ~ command_text scan t c) -> processCommand scan t s = None).
Proof. exact (conj (fun c => processed scan t c s) (unprocessed scan t s)). Qed.
Print Assumptions C82_processed.

(** A command is read from its name and numbers, whatever white space is between them, *)
Theorem C82_command_words scan c name xs ws extra t : scanner scan -> numeric c = Some (name, xs) -> words_of t (str name :: ws ++ extra) -> Forall2 (numeral scan) ws xs -> read_command scan t = Some c.
Proof. intros S. exact (numeric_words scan (sc_skips scan S) c name xs ws extra t). Qed.
Print Assumptions C82_command_words.
Example C82_command_words_case : scanner digits_scan /\ numeral digits_scan (decimal 12) 12 /\ words_of (str " sphere   12 ") [str "sphere"; decimal 12].
Proof. split; [exact digits_scanner|]. split; [apply (digits_numeral 12); split; [discriminate|reflexivity]|]. apply tokenize_words_iff. reflexivity. Qed.
(** and it is refused if a number is missing, *)
Theorem C82_command_missing scan c name xs ws ys t : scanner scan -> scan [] = None -> numeric c = Some (name, xs) -> words_of t (str name :: ws) -> Forall2 (numeral scan) ws ys -> (List.length ws < List.length xs)%nat ->
  read_command scan t = None.
Proof. intros S. exact (numeric_missing scan (sc_skips scan S) c name xs ws ys t). Qed.
Print Assumptions C82_command_missing.
(** but not if there are too many of them, *)
Theorem C82_superfluous_refuted : ~ (forall scan t c name xs ws, scanner scan -> read_command scan t = Some c -> numeric c = Some (name, xs) -> words_of t ws -> List.length ws = S (List.length xs)).
Proof. exact superfluous. Qed.
Print Assumptions C82_superfluous_refuted.
(** nor if the number of bodies is negative. *)
Theorem C82_negative_refuted : ~ (forall scan t w, words_of t [str "dup"; 45 :: w] -> read_command scan t = None).
Proof. exact negative_dup. Qed.
Print Assumptions C82_negative_refuted.

(** Convex bodies given by scripts: what is accepted, and what is made. *)
Theorem C82_convex scan stod t g pa sa origin volume ps : scanner scan ->
  (exists c, parse_generic_xeno_collide scan stod t = Some (c, g) /\ holds c pa sa origin volume ps) <->
  exists sections u cs, shape_text scan stod [str "script"] [] t sections pa sa origin volume ps /\ value sections "script" u /\ script_text scan u cs /\ build cs = Some g.
Proof. exact (fun S => convex_is scan (fun _ => 0%R) stod S t g pa sa origin volume ps). Qed.
Print Assumptions C82_convex.
Example C82_convex_case : shape_text digits_scan digits_stod [str "script"] [] script_sample script_sections (V3 1 0 0) (V3 0 1 0) vzero 5 [] /\
  (exists u, value script_sections "script" u /\ script_text digits_scan u script_commands) /\ exists g, build script_commands = Some g.
Proof. exact (conj script_shape (conj script_written script_builds)). Qed.

(** Polyspheres. *)
Theorem C82_polysphere scan failed stod t data pa sa origin volume ps : scanner scan ->
  (exists c, parse_polysphere_geometry scan failed stod t = Some (c, data) /\ holds c pa sa origin volume ps) <->
  exists sections u xs, shape_text scan stod [str "spheres"] [] t sections pa sa origin volume ps /\ value sections "spheres" u /\ all_numbers scan failed u xs /\ spheres_of xs data.
Proof. exact (fun S => polysphere_is scan failed stod S t data pa sa origin volume ps). Qed.
Print Assumptions C82_polysphere.
Example C82_polysphere_case : shape_text digits_scan digits_stod [str "spheres"] [] spoilt_text spoilt_sections (V3 1 0 0) (V3 0 1 0) vzero 5 [] /\
  exists u, value spoilt_sections "spheres" u /\ all_numbers digits_scan zero_failed u [1; 0; 0; 0]%R.
Proof. exact (conj spoilt_shape spoilt_spheres). Qed.

(** Polyspherocylinders. *)
Theorem C82_polyspherocylinder scan failed stod t data pa sa origin volume ps : scanner scan ->
  (exists c, parse_polyspherocylinder scan failed stod t = Some (c, data) /\ holds c pa sa origin volume ps) <->
  exists sections, shape_text scan stod [] [str "chain"; str "spherocylinders"] t sections pa sa origin volume ps /\ polyspherocylinder_of scan failed sections data.
Proof. exact (fun S => polyspherocylinder_is scan failed stod S t data pa sa origin volume ps). Qed.
Print Assumptions C82_polyspherocylinder.
Example C82_polyspherocylinder_case : chain_of chain_sample [(V3 0 0 1, V3 0 0 1, 1); (V3 0 1 2, V3 0 1 0, 1)]%R.
Proof. exact chain_case. Qed.

(** If there are only numbers, they are all read; *)
Theorem C82_numbers scan failed ws xs t : scanner scan -> Forall2 (numeral scan) ws xs -> words_of t ws -> all_numbers scan failed t xs.
Proof. exact (fun S => numerals_all scan failed S ws xs t). Qed.
Print Assumptions C82_numbers.
(** but after something which is not a number the rest of spheres may be left out without a message. *)
Theorem C82_dropped_refuted : ~ (forall scan failed stod t c data before after, scanner scan -> parse_polysphere_geometry scan failed stod t = Some (c, data) ->
  words_of t (before ++ str "spheres" :: after) -> Forall (fun w => ~ In w (common_fields ++ [str "namedPoints"])) after -> List.length after = (4 * List.length data)%nat).
Proof. exact spheres_dropped. Qed.
Print Assumptions C82_dropped_refuted.
