From Coq Require Import Reals ZArith List Bool String Lia Arith.
From Verif Require Import TextModel TextProofs GeomModel GeomProofs PbcModel GeoModel ShapesModel MeshModel MeshSpec XyzModel XyzSpec XyzTextProofs PrintModel PrintSpec OptModel.
Import ListNotations.
Local Open Scope list_scope.
Local Open Scope Z_scope.

Lemma split_cons : forall l cur r, List.Forall (fun c => c <> newline) l -> split_lines cur (l ++ newline :: r) = (cur ++ l) :: split_lines [] r.
Proof.
  induction l as [|c l IH]; intros cur r F; cbn [app split_lines].
  - rewrite Z.eqb_refl, app_nil_r. reflexivity.
  - inversion F as [|? ? C F']; subst. destruct (Z.eqb_spec c newline); [contradiction|]. rewrite IH by exact F'. rewrite <- app_assoc. reflexivity.
Qed.
Definition wordy (w : list Z) : Prop := w <> [] /\ List.Forall (fun c => is_space c = false) w.
Lemma words_cons w l : wordy w -> words [] (w ++ space :: l) = w :: words [] l.
Proof. intros [N F]. rewrite words_word by exact F. apply words_space, N. Qed.
Lemma words_last w : wordy w -> words [] w = [w].
Proof. intros [N F]. rewrite <- (app_nil_r w) at 1. rewrite words_word by exact F. cbn [words app]. destruct w; [congruence|reflexivity]. Qed.
Lemma wordy_line w : wordy w -> List.Forall (fun c => c <> newline) w.
Proof. intros [_ F]. revert F. apply Forall_impl. intros c C ->. discriminate. Qed.
Lemma line_no (a b c d : list Z) : wordy a -> wordy b -> wordy c -> wordy d -> List.Forall (fun c => c <> newline) (a ++ space :: b ++ space :: c ++ space :: d).
Proof.
  intros A B C D. assert (S : space <> newline) by discriminate.
  repeat (apply Forall_app; split; [apply wordy_line; assumption|constructor; [exact S|]]). apply wordy_line, D.
Qed.
Lemma words_four a b c d : wordy a -> wordy b -> wordy c -> wordy d -> words [] (a ++ space :: b ++ space :: c ++ space :: d) = [a; b; c; d].
Proof. intros A B C D. rewrite !words_cons, words_last by assumption. reflexivity. Qed.
Lemma read_line a b c d r : wordy a -> wordy b -> wordy c -> wordy d ->
  read_obj ((a ++ space :: b ++ space :: c ++ space :: d) ++ newline :: r) =
  (rest <- read_obj r ;;
   if text_eqb a (tx "v") then Some ((b, c, d) :: fst rest, snd rest)
   else if text_eqb a (tx "f") then i <- read_index b ;; j <- read_index c ;; k <- read_index d ;; Some (fst rest, (i, j, k) :: snd rest) else None).
Proof.
  intros A B C D. unfold read_obj. rewrite split_cons by (apply line_no; assumption). cbn [app read_lines].
  destruct (read_lines (split_lines [] r)) as [rest|]; cbn [obind]; [|reflexivity]. rewrite words_four by assumption. reflexivity.
Qed.
Lemma read_blank r : read_obj (endl ++ r) = read_obj r.
Proof. unfold read_obj. cbn [endl app split_lines]. rewrite Z.eqb_refl. cbn [read_lines]. destruct (read_lines (split_lines [] r)); reflexivity. Qed.
Lemma decimal_wordy z : wordy (decimal z).
Proof. split; [apply decimal_nonempty|apply decimal_no_space]. Qed.
Lemma read_decimal z : 0 <= z < 2 ^ 64 -> read_index (decimal z) = Some z.
Proof. intros Z0. unfold read_index. pose proof (extract_decimal z [] Z0) as E. rewrite app_nil_r in E. rewrite E by exact Logic.I. reflexivity. Qed.

Section obj.
Variable plain : R -> list Z.
Hypothesis numerals : forall x, numeral (plain x).
Lemma plain_wordy x : wordy (plain x).
Proof. split; [apply numerals|]. apply show_space, numerals. Qed.
Lemma v_wordy : wordy (tx "v"). Proof. split; [discriminate|repeat constructor]. Qed.
Lemma f_wordy : wordy (tx "f"). Proof. split; [discriminate|repeat constructor]. Qed.
Lemma vertices_read vs r : read_obj (flat_map (obj_vertex plain) vs ++ r) = (rest <- read_obj r ;; Some (List.map (point_text plain) vs ++ fst rest, snd rest)).
Proof.
  induction vs as [|v vs IH]; cbn [flat_map app List.map].
  - destruct (read_obj r) as [[]|]; reflexivity.
  - replace ((obj_vertex plain v ++ flat_map (obj_vertex plain) vs) ++ r) with
      ((tx "v" ++ space :: plain (vx v) ++ space :: plain (vy v) ++ space :: plain (vz v)) ++ newline :: (flat_map (obj_vertex plain) vs ++ r)).
    2:{ unfold obj_vertex. cbn [tx list_ascii_of_string List.map app endl]. rewrite <- ?app_assoc. cbn [app]. rewrite <- ?app_assoc. cbn [app]. rewrite <- ?app_assoc. reflexivity. }
    rewrite read_line by (try apply plain_wordy; apply v_wordy). rewrite IH. destruct (read_obj r); reflexivity.
Qed.
Lemma faces_read o ts r : List.Forall (fun t => let '(i, j, k) := t in Z.of_nat (i + o) + 1 < 2 ^ 64 /\ Z.of_nat (j + o) + 1 < 2 ^ 64 /\ Z.of_nat (k + o) + 1 < 2 ^ 64) ts ->
  read_obj (flat_map (obj_face o) ts ++ r) =
  (rest <- read_obj r ;; Some (fst rest, List.map (fun t => let '(i, j, k) := t in (Z.of_nat (i + o) + 1, Z.of_nat (j + o) + 1, Z.of_nat (k + o) + 1)) ts ++ snd rest)).
Proof.
  induction 1 as [|[[i j] k] ts (I & J & K) F IH]; cbn [flat_map app List.map].
  - destruct (read_obj r) as [[]|]; reflexivity.
  - replace ((obj_face o (i, j, k) ++ flat_map (obj_face o) ts) ++ r) with
      ((tx "f" ++ space :: index (i + o) ++ space :: index (j + o) ++ space :: index (k + o)) ++ newline :: (flat_map (obj_face o) ts ++ r)).
    2:{ unfold obj_face. cbn [tx list_ascii_of_string List.map app endl]. rewrite <- ?app_assoc. cbn [app]. rewrite <- ?app_assoc. cbn [app]. rewrite <- ?app_assoc. reflexivity. }
    rewrite read_line by (try apply decimal_wordy; apply f_wordy). rewrite IH. destruct (read_obj r) as [rest|]; [|reflexivity]. cbn [obind].
    change (text_eqb (tx "f") (tx "v")) with false. change (text_eqb (tx "f") (tx "f")) with true. cbn iota. unfold index.
    rewrite !read_decimal by lia. reflexivity.
Qed.
Lemma nth_point_app {A} (pre l : list A) i a : nth_error l i = Some a -> forall post, nth_point (pre ++ l ++ post) (Z.of_nat (i + List.length pre) + 1) = Some a.
Proof.
  intros H post. unfold nth_point. assert (Z.ltb 0 (Z.of_nat (i + List.length pre) + 1) = true) as -> by lia.
  replace (Z.to_nat (Z.of_nat (i + List.length pre) + 1 - 1)) with (List.length pre + i)%nat by lia.
  rewrite nth_error_app2 by lia. replace (List.length pre + i - List.length pre)%nat with i by lia. rewrite nth_error_app1; [exact H|]. apply nth_error_Some. congruence.
Qed.
Lemma obj_reads s (scene : list ((polyhedron * vec) * list (vec * vec * vec))) : List.Forall (fun e => faces (fst e) (snd e)) scene ->
  forall pre, Z.of_nat (List.length pre + List.length (obj_points (List.map fst scene) s)) < 2 ^ 64 ->
  exists ts, read_obj (print_obj plain (List.map fst scene) (List.length pre) s) = Some (List.map (point_text plain) (obj_points (List.map fst scene) s), ts) /\
    Forall2 (resolved (pre ++ obj_points (List.map fst scene) s)) ts (flat_map (fun e => List.map (placed_face s (snd (fst e))) (snd e)) scene).
Proof.
  induction 1 as [|[[p c] fs] scene F _ IH]; intros pre B.
  - exists []. split; [reflexivity|constructor].
  - cbn [List.map fst snd flat_map] in *. cbn [print_obj].
    set (pts := List.map (fun v => placed s (vadd c v)) (po_vertices p)).
    assert (OP : obj_points ((p, c) :: List.map fst scene) s = pts ++ obj_points (List.map fst scene) s) by reflexivity.
    assert (TV : po_vertices (transformed (vadd (sh_pos s) (mvec (sh_rot s) c)) (sh_rot s) p) = pts).
    { cbn [transformed po_vertices]. apply List.map_ext. intros v. unfold placed. rewrite mvec_add. apply vec_ext; cbn; ring. }
    rewrite OP in *. rewrite TV. cbn [transformed po_triangles] in *.
    rewrite app_length in B.
    destruct (IH (pre ++ pts)) as (ts & R1 & R2). { rewrite app_length. lia. }
    rewrite app_length in R1.
    unfold storeWavefrontObj. rewrite TV. cbn [transformed po_triangles].
    rewrite <- !app_assoc, vertices_read, read_blank, faces_read.
    + rewrite R1. cbn [obind fst snd]. eexists. split; [rewrite List.map_app; reflexivity|].
      apply Forall2_app.
      * clear - F. unfold faces in F. cbn [fst] in F. induction F as [|[[i j] k] [[a b] d] l m (A & B & C) F IH]; constructor; [|exact IH].
        cbn [placed_face resolved].
        repeat split; apply nth_point_app; unfold pts; rewrite nth_error_map; [rewrite A|rewrite B|rewrite C]; reflexivity.
      * rewrite <- app_assoc in R2. exact R2.
    + unfold faces in F. cbn [fst] in F. apply Forall_forall. intros [[i j] k] IT.
      assert (exists f, face p (i, j, k) f) as ([[a b] d] & A & A' & A'').
      { clear - F IT. induction F as [|t f l m T F IH]; [destruct IT|]. destruct IT as [->|IT]; eauto. }
      assert (LP : List.length pts = List.length (po_vertices p)) by apply map_length.
      assert (forall n v, nth_error (po_vertices p) n = Some v -> (n < List.length pts)%nat) as LT by (intros n v H; rewrite LP; apply nth_error_Some; congruence).
      pose proof (LT _ _ A). pose proof (LT _ _ A'). pose proof (LT _ _ A''). lia.
Qed.
End obj.
