(** A file with a comment, a section and a continued value. *)
From Coq Require Import ZArith List Bool Ascii String.
From Verif Require Import OptModel TextModel StringsModel StringsSpec LinesSpec ConfigModel ConfigSpec.
Import ListNotations.
Open Scope Z_scope.

Definition codes (s : string) : list Z := List.map (fun a => Z.of_N (N_of_ascii a)) (list_ascii_of_string s).
Definition some_lines : list (list Z) := [codes "key = 1  ; about the key"; codes ""; codes "[sec.sub]"; codes " long= one \ # more"; codes "# none"; codes "   two"].
Definition some_items : list item := [IField (codes "key") [codes "1"]; ISection (codes "sec.sub"); IField (codes "long") [codes "one"; codes "two"]].
Ltac plain := repeat (apply Forall_cons || apply Forall_nil || split); try reflexivity; try discriminate.
Ltac is_trimmed := split; [intros c r E; injection E as <- _; reflexivity|intros c r E; repeat (destruct r as [|? r]; [try discriminate E; injection E; intros; subst; reflexivity|injection E as _ E]); try discriminate E; destruct r; discriminate E].
Ltac no_backslash := intros (r & E); repeat (destruct r as [|? r]; [discriminate E|injection E as _ E]); try discriminate E; destruct r; discriminate E.
Ltac lay a b c := match goal with |- around ?x _ => apply (A_line x a b c) end.
Lemma some_file : file 61 some_items some_lines.
Proof.
  unfold some_items, some_lines.
  apply (F_item 61 _ [codes "key = 1  ; about the key"]).
  { apply (S_field 61 (codes "key") (codes " ") (codes " ") (codes "1")); try (plain; fail).
    - split; [plain|]. split; [is_trimmed|]. split; [plain|discriminate].
    - is_trimmed.
    - no_backslash.
    - lay (codes "") (codes "  ") (codes "; about the key"); [plain|plain|]. right. exists 59. eexists. split; [reflexivity|]. split; [auto|plain]. }
  apply F_blank; [lay (codes "") (codes "") (codes ""); [plain|plain|left; reflexivity]|].
  apply (F_item 61 _ [codes "[sec.sub]"]).
  { apply S_section; [plain|]. lay (codes "") (codes "") (codes ""); [plain|plain|left; reflexivity]. }
  apply (F_item 61 _ [codes " long= one \ # more"; codes "# none"; codes "   two"] [] []); [|constructor].
  apply (S_more 61 (codes "long") [] (codes " ") (codes "one") (codes " ")); try (plain; fail).
  - split; [plain|]. split; [is_trimmed|]. split; [plain|discriminate].
  - is_trimmed.
  - lay (codes " ") (codes " ") (codes "# more"); [plain|plain|]. right. exists 35. eexists. split; [reflexivity|]. split; [auto|plain].
  - apply RV_blank; [lay (codes "") (codes "") (codes "# none"); [plain|plain|]; right; exists 35; eexists; split; [reflexivity|]; split; [auto|plain]|].
    apply RV_last; [plain|is_trimmed|discriminate|no_backslash|]. lay (codes "   ") (codes "") (codes ""); [plain|plain|left; reflexivity].
Qed.
Lemma equals_clean : clean_delimiter 61. Proof. plain. Qed.
