(** INI configurations. *)
From Coq Require Import ZArith List Bool String.
From Verif Require Import OptModel TextModel StringsModel StringsSpec LinesSpec ConfigModel ConfigSpec ConfigProofs ConfigFinalProofs ConfigExamples.
Import ListNotations.
Open Scope Z_scope.

(** C42: a file with any layout of its lines - white space, comments, empty lines, continued values - is parsed to the fields which its items
    mean, in order; it is refused exactly if an item is malformed or a key is defined again and this is not allowed. *)
Theorem C42_parse d allow is ls t : clean_delimiter d -> file d is ls -> text_of ls t ->
  match meaning allow is [] [] with
  | None => parse t d allow = None
  | Some fs => exists c, parse t d allow = Some c /\ holds_fields fs c
  end.
Proof. exact (parse_meaning d allow is ls t). Qed.
Print Assumptions C42_parse.
Example C42_parse_example : clean_delimiter 61 /\ file 61 some_items some_lines /\ text_of some_lines (joined newline some_lines) /\
  meaning false some_items [] [] = Some [(codes "key", codes "1"); (codes "sec.sub.long", codes "one" ++ newline :: codes "two")] /\ meaning false (some_items ++ some_items) [] [] = None /\ meaning true (some_items ++ some_items) [] [] <> None.
Proof. split; [exact equals_clean|]. split; [exact some_file|]. split; [right; split; [discriminate|reflexivity]|]. split; [reflexivity|]. split; [reflexivity|vm_compute; discriminate]. Qed.

(** C42: a line continuation after which nothing comes is an error, whatever the lines before it are. *)
Theorem C42_dangling d allow ls s l bs t : Forall (Forall (fun c => c <> newline)) ls -> no_comment s -> around (s ++ [92]) l -> Forall (around []) bs -> text_of (ls ++ l :: bs) t ->
  parse t d allow = None.
Proof. exact (dangling d allow ls s l bs t). Qed.
Print Assumptions C42_dangling.
Theorem C42_delimiter t d allow : d = 35 \/ d = 59 -> parse t d allow = None.
Proof. exact (bad_delimiter t d allow). Qed.
Print Assumptions C42_delimiter.

(** C42: a field exists if and only if it has a value; each section is listed once, exactly the sections of the keys are. *)
Theorem C42_fields fs c k : holds_fields fs c -> (hasField c k = true <-> exists v, In (k, v) fs) /\ (hasField c k = true <-> getString c k <> None).
Proof. exact (has_field_iff fs c k). Qed.
Print Assumptions C42_fields.
Theorem C42_once l u : once l u -> (forall n, In n u <-> In n l) /\ NoDup u.
Proof. exact (once_in l u). Qed.
Print Assumptions C42_once.

(** C42: a listed section can be taken out: it has its fields and those of its subsections, without its name. *)
Theorem C42_section fs c section : holds_fields fs c -> In section (cf_sections c) ->
  exists fs' c', fetchSubconfig c section = Some c' /\ picked section fs fs' /\ holds_fields fs' c'.
Proof. exact (sub_fields fs c section). Qed.
Print Assumptions C42_section.
Theorem C42_section_missing c section : ~ In section (cf_sections c) -> fetchSubconfig c section = None.
Proof. exact (sub_missing c section). Qed.
Print Assumptions C42_section_missing.

(** C42: a root section which has only subsections cannot be taken out. *)
Theorem C42_root_refuted : exists t c s, parse t 61 false = Some c /\ hasRootSection c s = true /\ fetchSubconfig c s = None.
Proof.
  assert (H : match parse (joined newline some_lines) 61 false with None => false | Some c => hasRootSection c (codes "sec") && match fetchSubconfig c (codes "sec") with None => true | Some _ => false end end = true) by (vm_compute; reflexivity).
  destruct (parse (joined newline some_lines) 61 false) as [c|] eqn:E; [|discriminate]. apply andb_prop in H. destruct H as (A&B). exists (joined newline some_lines), c, (codes "sec"). split; [exact E|]. split; [exact A|].
  destruct (fetchSubconfig c (codes "sec")); [discriminate|reflexivity].
Qed.
Print Assumptions C42_root_refuted.
Example C42_section_example : exists c c', parse (joined newline some_lines) 61 false = Some c /\ cf_sections c = [[]; codes "sec.sub"] /\ cf_roots c = [[]; codes "sec"] /\
  fetchSubconfig c (codes "sec.sub") = Some c' /\ cf_keys c' = [codes "long"].
Proof. eexists. eexists. split; [vm_compute; reflexivity|]. split; [reflexivity|]. split; [reflexivity|]. split; [vm_compute; reflexivity|]. reflexivity. Qed.
