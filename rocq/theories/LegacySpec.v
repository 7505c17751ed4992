(** How shapes and commands are written in old input files. *)
From Coq Require Import Reals ZArith List String.
From Verif Require Import TextModel StringsSpec LinesSpec RamsnapSpec GeomModel GeoModel XcModel LegacyModel.
Import ListNotations.
Open Scope Z_scope.

(** *** Words *)
(** Words with white space between them, and perhaps around them *)
Inductive words_of : text -> list text -> Prop :=
| no_words b : spaces b -> words_of b []
| one_more_word b w r ws : spaces b -> word_like w -> stops r -> words_of r ws -> words_of (b ++ w ++ r) (w :: ws).
Definition spaced (ws : list text) : text := joined_by [space] ws.

(** *** Fields: names of fields followed by words of their values; perhaps some words before the first name *)
Record laid_out (fields tokens lead : list text) (sections : list (text * list text)) : Prop := {
  lo_tokens : tokens = lead ++ flat_map (fun s => fst s :: snd s) sections;
  lo_lead : Forall (fun t => ~ In t fields) lead;
  lo_sections : Forall (fun s => In (fst s) fields /\ Forall (fun t => ~ In t fields) (snd s)) sections }.
Definition allowed (fields lead : list text) (sections : list (text * list text)) : Prop := NoDup (map fst sections) /\ (lead <> [] -> In [] fields).
Definition contents (lead : list text) (sections : list (text * list text)) : list (text * text) :=
  (match lead with [] => [] | _ => [([], spaced lead)] end) ++ map (fun s => (fst s, spaced (snd s))) sections.

(** *** Numbers *)
Section Numbers.
Variable scan : text -> option (R * text).
(** White space before a number is skipped, and a number is not empty. *)
Record scanner : Prop := { sc_skips : forall c l, is_space c = true -> scan (c :: l) = scan l; sc_consumes : forall l x r, scan l = Some (x, r) -> (List.length r < List.length l)%nat }.
(** A word which is read as a number *)
Definition numeral (w : text) (x : R) : Prop := word_like w /\ forall l, stops l -> scan (w ++ l) = Some (x, l).
(** Numbers at the beginning, and what is left *)
Inductive numbers : text -> list R -> text -> Prop :=
| no_numbers t : numbers t [] t
| one_more_number t x r xs r' : scan t = Some (x, r) -> numbers r xs r' -> numbers t (x :: xs) r'.
(** All the numbers. Where there is something which is not a number, [failed] is taken for it, and the rest is not looked at. *)
Inductive all_numbers (failed : text -> R) : text -> list R -> Prop :=
| nothing_left t : spaces t -> all_numbers failed t []
| number_read t x r xs : ~ spaces t -> scan t = Some (x, r) -> all_numbers failed r xs -> all_numbers failed t (x :: xs)
| not_a_number b t : spaces b -> ~ stops t -> scan t = None -> all_numbers failed (b ++ t) [failed t].
Definition vector_text (t : text) (v : vec) : Prop := exists r, numbers t [vx v; vy v; vz v] r.
Definition axis_text (t : text) (u : vec) : Prop := exists v, vector_text t v /\ (/ 10 ^ 8 <= vnorm v)%R /\ u = vscale (/ vnorm v) v.
(** A name and a vector, and what is left *)
Definition point_text (t name : text) (p : vec) (r : text) : Prop :=
  exists b t', t = b ++ name ++ t' /\ spaces b /\ word_like name /\ stops t' /\ numbers t' [vx p; vy p; vz p] r.
Inductive points_text : text -> points -> Prop :=
| last_point t n p r : point_text t n p r -> spaces r -> points_text t [(n, p)]
| more_points t n p r ps : point_text t n p r -> ~ spaces r -> points_text r ps -> points_text t ((n, p) :: ps).

(** *** Commands *)
Definition count_text (t : text) (n : nat) : Prop := exists z r, extract_size t = Some (z, r) /\ n = Z.to_nat z.
Definition command_parts (name args : text) (c : command) : Prop :=
  match c with
  | Cuboid x y z => name = str "cuboid" /\ exists r, numbers args [x; y; z] r
  | Disk x => name = str "disk" /\ exists r, numbers args [x] r
  | Ellipse x y => name = str "ellipse" /\ exists r, numbers args [x; y] r
  | Ellipsoid x y z => name = str "ellipsoid" /\ exists r, numbers args [x; y; z] r
  | Football l x => name = str "football" /\ exists r, numbers args [l; x] r
  | Point x y z => name = str "point" /\ exists r, numbers args [x; y; z] r
  | Rectangle x y => name = str "rectangle" /\ exists r, numbers args [x; y] r
  | Saucer x l => name = str "saucer" /\ exists r, numbers args [x; l] r
  | Segment l => name = str "segment" /\ exists r, numbers args [l] r
  | Sphere x => name = str "sphere" /\ exists r, numbers args [x] r
  | Move x y z => name = str "move" /\ exists r, numbers args [x; y; z] r
  | Rotate x y z => name = str "rot" /\ exists r, numbers args [x; y; z] r
  | Diff => name = str "diff"
  | Sum n => name = str "sum" /\ ((args = [] /\ n = 2%nat) \/ (args <> [] /\ count_text args n))
  | Wrap n => name = str "wrap" /\ ((args = [] /\ n = 2%nat) \/ (args <> [] /\ count_text args n))
  | Dup n => name = str "dup" /\ count_text args n
  | Pop => name = str "pop"
  | Swap => name = str "swap"
  | Clear => False
  end.
(** White space around a command does not count. *)
Definition command_text (t : text) (c : command) : Prop :=
  exists b name args e, t = b ++ name ++ args ++ e /\ spaces b /\ spaces e /\ word_like name /\ stops args /\ (args = [] \/ is_space (last args 0) = false) /\ command_parts name args c.
(** Commands with numbers only *)
Definition numeric (c : command) : option (string * list R) :=
  match c with
  | Cuboid x y z => Some ("cuboid"%string, [x; y; z]) | Disk r => Some ("disk"%string, [r]) | Ellipse x y => Some ("ellipse"%string, [x; y])
  | Ellipsoid x y z => Some ("ellipsoid"%string, [x; y; z]) | Football l r => Some ("football"%string, [l; r]) | Point x y z => Some ("point"%string, [x; y; z])
  | Rectangle x y => Some ("rectangle"%string, [x; y]) | Saucer r l => Some ("saucer"%string, [r; l]) | Segment l => Some ("segment"%string, [l])
  | Sphere r => Some ("sphere"%string, [r]) | Move x y z => Some ("move"%string, [x; y; z]) | Rotate x y z => Some ("rot"%string, [x; y; z])
  | _ => None
  end.

(** *** Shapes *)
Variables (stod : text -> option R).
Definition value (sections : list (text * list text)) (k : string) (t : text) : Prop := exists ws, In (str k, ws) sections /\ t = spaced ws.
Definition common_fields : list text := [str "primaryAxis"; str "secondaryAxis"; str "geometricOrigin"; str "volume"].
Record shape_text (required optional : list text) (t : text) (sections : list (text * list text)) (pa sa origin : vec) (volume : R) (ps : points) : Prop := {
  sh_words : exists ws, words_of t ws /\ laid_out (common_fields ++ required ++ [str "namedPoints"] ++ optional) ws [] sections;
  sh_once : NoDup (map fst sections);
  sh_required : forall k, In k (common_fields ++ required) -> In k (map fst sections);
  sh_primary : exists u, value sections "primaryAxis" u /\ axis_text u pa;
  sh_secondary : exists u, value sections "secondaryAxis" u /\ axis_text u sa;
  sh_origin : exists u, value sections "geometricOrigin" u /\ vector_text u origin;
  sh_volume : exists u, value sections "volume" u /\ stod u = Some volume /\ (0 < volume)%R;
  sh_points : (~ In (str "namedPoints") (map fst sections) /\ ps = []) \/ exists u, value sections "namedPoints" u /\ points_text u ps }.
Definition holds (c : common) (pa sa origin : vec) (volume : R) (ps : points) : Prop :=
  co_primary c = pa /\ co_secondary c = sa /\ co_origin c = origin /\ co_volume c = volume /\ co_points c = ps.
(** Commands with & between them *)
Definition script_text (t : text) (cs : list command) : Prop :=
  t <> [] /\ exists parts, pieces_of 38 t parts /\ Forall2 command_text parts cs.
Definition spheres_of (xs : list R) (data : list (vec * R)) : Prop :=
  data <> [] /\ xs = flat_map (fun s => [snd s; vx (fst s); vy (fst s); vz (fst s)]) data /\ Forall (fun s => (0 < snd s)%R) data.
(** A spherocylinder with given ends *)
Definition between (r : R) (p q : vec) (s : vec * vec * R) : Prop := let '(pos, half, radius) := s in vsub pos half = p /\ vadd pos half = q /\ radius = r.
Definition coords (p : vec) : list R := [vx p; vy p; vz p].
Definition spherocylinders_of (xs : list R) (data : list (vec * vec * R)) : Prop :=
  data <> [] /\ exists ends, xs = flat_map (fun e : R * vec * vec => let '(r, p, q) := e in r :: coords p ++ coords q) ends /\
    Forall2 (fun (e : R * vec * vec) s => let '(r, p, q) := e in (0 < r)%R /\ between r p q s) ends data.
Definition chain_of (xs : list R) (data : list (vec * vec * R)) : Prop :=
  data <> [] /\ exists r ps, (0 < r)%R /\ xs = r :: flat_map coords ps /\ List.length ps = S (List.length data) /\
    forall i p q s, nth_error ps i = Some p -> nth_error ps (S i) = Some q -> nth_error data i = Some s -> between r p q s.
(** A chain, separate spherocylinders, or both: the chain first *)
Definition polyspherocylinder_of (failed : text -> R) (sections : list (text * list text)) (data : list (vec * vec * R)) : Prop :=
  data <> [] /\ exists d1 d2, data = d1 ++ d2 /\
    ((~ In (str "chain") (map fst sections) /\ d1 = []) \/ exists u xs, value sections "chain" u /\ all_numbers failed u xs /\ chain_of xs d1) /\
    ((~ In (str "spherocylinders") (map fst sections) /\ d2 = []) \/ exists u xs, value sections "spherocylinders" u /\ all_numbers failed u xs /\ spherocylinders_of xs d2).
End Numbers.
