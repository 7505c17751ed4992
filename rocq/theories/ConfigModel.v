(** [src/utils/Config.cpp]. A stream is the text which it holds; exceptions are [None]. *)
From Coq Require Import ZArith List Bool.
From Verif Require Import OptModel TextModel StringsModel.
Import ListNotations.
Open Scope Z_scope.

(** Config.h:84-87 *)
Record config := Config { cf_map : list (list Z * list Z); cf_keys : list (list Z); cf_sections : list (list Z); cf_roots : list (list Z) }.

(** Config.cpp:102-106: everything from the first ; or # on is erased *)
Fixpoint stripComment (l : list Z) : list Z :=
  match l with [] => [] | c :: l' => if Z.eqb c 59 || Z.eqb c 35 then [] else c :: stripComment l' end.
(** std::find *)
Definition member (k : list Z) (l : list (list Z)) : bool := existsb (text_eqb k) l.
(** std::map::find *)
Fixpoint lookup (k : list Z) (m : list (list Z * list Z)) : option (list Z) :=
  match m with [] => None | (k', v) :: m' => if text_eqb k k' then Some v else lookup k m' end.
(** std::string::find of a character: the text before it and after it *)
Fixpoint cut_at (c : Z) (l : list Z) : option (list Z * list Z) :=
  match l with [] => None | x :: l' => if Z.eqb x c then Some ([], l') else r <- cut_at c l' ;; Some (x :: fst r, snd r) end.
(** std::string::find_last_of of a character: the text before it *)
Fixpoint cut_last (c : Z) (l : list Z) : option (list Z) :=
  match l with [] => None | x :: l' => match cut_last c l' with Some r => Some (x :: r) | None => if Z.eqb x c then Some [] else None end end.

(** Config.cpp:69-75; [None]: the line starts with [ and does not end with ] *)
Definition isItSectionEntry (line : list Z) : option bool :=
  match line with 91 :: _ => if Z.eqb (last line 0) 93 then Some true else None | _ => Some false end.
(** Config.cpp:80-97 *)
Definition splitField (line : list Z) (delim : Z) (section : list Z) : option (list Z * list Z) :=
  r <- cut_at delim line ;;
  if existsb (Z.eqb 46) (fst r) then None else Some (section ++ trim (fst r), trim (snd r)).

(** The variables of the loop: fields, keys, current section, the collected line, whether the last line is to be continued *)
Record parser := Parser { pa_map : list (list Z * list Z); pa_keys : list (list Z); pa_section : list Z; pa_line : list Z; pa_continued : bool }.
(** Config.cpp:22-58: one line *)
Definition parse_line (delim : Z) (allow : bool) (raw : list Z) (p : parser) : option parser :=
  let partial := trim (stripComment raw) in
  match partial with
  | [] => Some p
  | _ =>
    let line := if pa_continued p then pa_line p ++ [newline] else [] in
    if Z.eqb (last partial 0) 92 then
      Some (Parser (pa_map p) (pa_keys p) (pa_section p) (line ++ trim (removelast partial)) true)
    else
      let line := line ++ partial in
      s <- isItSectionEntry line ;;
      if s then Some (Parser (pa_map p) (pa_keys p) (removelast (tl line) ++ [46]) line false)
      else
        f <- splitField line delim (pa_section p) ;;
        if member (fst f) (pa_keys p) && negb allow then None
        else Some (Parser (map_set (fst f) (snd f) (pa_map p)) (if member (fst f) (pa_keys p) then pa_keys p else pa_keys p ++ [fst f]) (pa_section p) line false)
  end.
Fixpoint parse_lines (delim : Z) (allow : bool) (lines : list (list Z)) (p : parser) : option parser :=
  match lines with [] => Some p | l :: ls => p' <- parse_line delim allow l p ;; parse_lines delim allow ls p' end.

(** Config.cpp:156-170 and 176-190: names which are not in the set yet are listed *)
Fixpoint list_once (names seen : list (list Z)) : list (list Z) :=
  match names with [] => [] | n :: ns => if member n seen then list_once ns seen else n :: list_once ns (n :: seen) end.
Definition buildSections (keys : list (list Z)) : list (list Z) := list_once (map (fun k => match cut_last 46 k with None => [] | Some s => s end) keys) [].
Definition buildRootSections (keys : list (list Z)) : list (list Z) := list_once (map (fun k => match cut_at 46 k with None => [] | Some r => fst r end) keys) [].
Definition build (m : list (list Z * list Z)) (keys : list (list Z)) : config := Config m keys (buildSections keys) (buildRootSections keys).

(** Config.cpp:13-67 *)
Definition parse (text : list Z) (delim : Z) (allow : bool) : option config :=
  if Z.eqb delim 35 || Z.eqb delim 59 then None
  else
    p <- parse_lines delim allow (getlines newline text) (Parser [] [] [] [] false) ;;
    if pa_continued p then None else Some (build (pa_map p) (pa_keys p)).

(** Config.cpp:108-113, 143-153 *)
Definition getString (c : config) (k : list Z) : option (list Z) := lookup k (cf_map c).
Definition hasField (c : config) (k : list Z) : bool := member k (cf_keys c).
Definition hasSection (c : config) (s : list Z) : bool := member s (cf_sections c).
Definition hasRootSection (c : config) (s : list Z) : bool := member s (cf_roots c).

(** Config.cpp:192-218: the loops *)
Fixpoint fetch_keys (select : list Z -> option (list Z)) (m : list (list Z * list Z)) (keys : list (list Z)) (acc : list (list Z * list Z)) (out : list (list Z)) :
  option (list (list Z * list Z) * list (list Z)) :=
  match keys with
  | [] => Some (acc, out)
  | k :: ks =>
    match select k with
    | None => fetch_keys select m ks acc out
    | Some k' => v <- lookup k m ;; fetch_keys select m ks (map_set k' v acc) (out ++ [k'])
    end
  end.
Definition fetchSubconfig (c : config) (section : list Z) : option config :=
  if hasSection c section then
    r <- fetch_keys (fun k => match section with
                              | [] => if existsb (Z.eqb 46) k then None else Some k
                              | _ => if startsWith k (section ++ [46]) then Some (skipn (length section + 1) k) else None
                              end) (cf_map c) (cf_keys c) [] [] ;;
    Some (build (fst r) (snd r))
  else None.
