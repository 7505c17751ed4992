(** C43 and C44: versions; cutting, joining and replacing. *)
From Coq Require Import ZArith List Bool Lia.
From Verif Require Import OptModel TextModel TextProofs LinesSpec StringsModel StringsSpec StringsProofs.
Import ListNotations.
Open Scope Z_scope.

(** Parsing inverts printing. *)
Theorem C43_back : forall v, version_ok v -> parse_version (version_str v) = Some v.
Proof. exact version_back. Qed.
Print Assumptions C43_back.
Example C43_back_case : version_ok (Version 1 20 3) /\ version_str (Version 1 20 3) = [49; 46; 50; 48; 46; 51].
Proof. split; [repeat split; cbn; lia|reflexivity]. Qed.

(** Missing components are zero, white space around components is ignored. *)
Theorem C43_missing : forall w1 w2 w3 w4 a b, spaces w1 -> spaces w2 -> spaces w3 -> spaces w4 -> 0 <= a < 2 ^ 64 -> 0 <= b < 2 ^ 64 ->
  parse_version (w1 ++ decimal a ++ w2) = Some (Version a 0 0) /\
  parse_version ((w1 ++ decimal a ++ w2) ++ 46 :: w3 ++ decimal b ++ w4) = Some (Version a b 0).
Proof. exact version_short. Qed.
Print Assumptions C43_missing.
Example C43_missing_case : parse_version [32; 49; 46; 32; 50; 32] = Some (Version 1 2 0).
Proof. refine (proj2 (C43_missing [32] [] [32] [32] 1 2 _ _ _ _ _ _)); try lia; repeat (constructor; [reflexivity|]); constructor. Qed.

(** More than three components and empty components are refused. *)
Theorem C43_refused : forall s ps, pieces_of 46 s ps -> (3 < length ps)%nat \/ (exists p, In p ps /\ spaces p) -> parse_version s = None.
Proof. exact version_refused. Qed.
Print Assumptions C43_refused.
Example C43_refused_case : parse_version [49; 46; 32; 46; 50] = None.
Proof.
  apply (C43_refused _ [[49]; [32]; [50]]); [|right; exists [32]; split; [right; left; reflexivity|constructor; [reflexivity|constructor]]].
  split; [discriminate|]. split; [|reflexivity]. repeat (constructor; [repeat (constructor; [discriminate|]); constructor|]). constructor.
Qed.

(** The comparison is the lexicographic order, and it is total. *)
Theorem C43_order : forall a b c,
  (version_ltb a b = true <-> older a b) /\ (version_gtb a b = true <-> older b a) /\ (version_eqb a b = true <-> a = b) /\
  (version_leb a b = true <-> older a b \/ a = b) /\ (version_geb a b = true <-> older b a \/ a = b) /\
  ~ older a a /\ (older a b -> older b c -> older a c) /\ (older a b \/ a = b \/ older b a).
Proof.
  assert (N : forall a b, negb (version_ltb b a) = true <-> older a b \/ a = b).
  { intros a b. rewrite negb_true_iff, <- not_true_iff_false, version_ltb_iff. split; [intros H; destruct (older_total a b) as [?|[?|?]]; tauto|].
    intros [H|E] H2; [exact (older_irrefl a (older_trans _ _ _ H H2))|subst a; exact (older_irrefl b H2)]. }
  intros a b c. split; [apply version_ltb_iff|]. split; [apply version_ltb_iff|]. split; [apply version_eqb_iff|]. split; [apply N|]. split; [unfold version_geb; rewrite N; intuition congruence|].
  split; [apply older_irrefl|]. split; [apply older_trans|apply older_total].
Qed.
Print Assumptions C43_order.
Example C43_order_case : older (Version 0 9 7) (Version 0 10 0) /\ older (Version 0 10 0) (Version 1 0 0).
Proof. unfold older. cbn. lia. Qed.

(** A negative component is not refused: it is taken modulo 2^64. *)
Theorem C43_negative_refuted : parse_version [45; 49] = Some (Version (2 ^ 64 - 1) 0 0).
Proof. reflexivity. Qed.
Print Assumptions C43_negative_refuted.

(** Joining and then cutting gives the parts back. *)
Theorem C44_explode_implode : forall ps d, ps <> [[]] -> Forall (Forall (fun c => c <> d)) ps -> explode (implode ps [d]) d = ps.
Proof. exact explode_implode. Qed.
Print Assumptions C44_explode_implode.
Example C44_explode_implode_case : explode [44; 97; 44; 44] 44 = [[]; [97]; []; []].
Proof. apply (C44_explode_implode [[]; [97]; []; []] 44); [discriminate|]. repeat (constructor; [repeat (constructor; [discriminate|]); constructor|]). constructor. Qed.

(** Cutting and then joining gives every text back, and no part has the delimiter. *)
Theorem C44_implode_explode : forall s d, implode (explode s d) [d] = s.
Proof. exact implode_explode. Qed.
Print Assumptions C44_implode_explode.
Theorem C44_explode : forall s d ps, s <> [] -> pieces_of d s ps -> explode s d = ps.
Proof. intros s d ps. exact (explode_pieces d s ps). Qed.
Print Assumptions C44_explode.
(** Joining with any delimiter. *)
Theorem C44_implode : forall ps delim, implode ps delim = joined_by delim ps.
Proof. exact implode_by. Qed.
Print Assumptions C44_implode.
Example C44_implode_case : implode [[97]; []; [98]] [44; 32] = [97; 44; 32; 44; 32; 98].
Proof. reflexivity. Qed.

(** Every occurrence is replaced, from left to right, and the loop ends. *)
Theorem C44_replace : forall source search replace fuel, search <> [] -> (length source < fuel)%nat ->
  exists t, replaceAll fuel source search replace = Some t /\ replaced search replace source t /\ forall u, replaced search replace source u -> u = t.
Proof.
  intros source search replace fuel N L. destruct (replaceAll_spec source search replace fuel N L) as (t & E & R). exists t. split; [exact E|]. split; [exact R|]. intros u U. exact (replaced_unique search replace N _ _ U _ R).
Qed.
Print Assumptions C44_replace.
Example C44_replace_case : replaceAll 10 [97; 97; 97; 98] [97; 97] [97; 97; 97] = Some [97; 97; 97; 97; 98].
Proof. reflexivity. Qed.

(** The empty search string: the loop never ends. *)
Theorem C44_empty_refuted : forall source replace fuel, replaceAll fuel source [] replace = None.
Proof. exact empty_search_loops. Qed.
Print Assumptions C44_empty_refuted.

(** White space is trimmed at both ends and nothing else. *)
Theorem C44_trim : forall s, exists w w', spaces w /\ spaces w' /\ s = w ++ trim s ++ w' /\ trimmed (trim s).
Proof. exact trim_split. Qed.
Print Assumptions C44_trim.
(** Prefixes and suffixes. *)
Theorem C44_ends : forall s p, (startsWith s p = true <-> exists b, s = p ++ b) /\ (endsWith s p = true <-> exists a, s = a ++ p).
Proof. intros s p. split; [apply startsWith_iff|apply endsWith_iff]. Qed.
Print Assumptions C44_ends.
