From Coq Require Import Reals ZArith List Bool Lia ZifyBool ZifyNat String.
From Verif Require Import TextModel TextProofs LinesModel LinesSpec StringsModel GeomModel PbcModel RotModel RotSpec RotQuatProofs XyzModel XyzSpec OptModel.
Import ListNotations.
Local Open Scope list_scope.
Open Scope Z_scope.

(** *** The reader of pairs *)
Lemma pairs_key : forall s k l, List.Forall (fun c => is_space c = false /\ c <> 61) s -> pairs (Key k) (s ++ 61 :: l) = pairs (Equals (k ++ s)) l.
Proof.
  induction s as [|c s IH]; intros k l F; cbn [app pairs].
  - rewrite app_nil_r. reflexivity.
  - pose proof (Forall_inv F) as [H1 H2]. destruct (Z.eqb_spec c 61); [contradiction|]. rewrite H1, IH by exact (Forall_inv_tail F). rewrite <- app_assoc. reflexivity.
Qed.
Lemma pairs_quoted : forall s k v l, List.Forall (fun c => c <> 34) s ->
  pairs (Quoted k v) (s ++ 34 :: l) = r <- pairs (Key []) l ;; Some ((k, v ++ s) :: r).
Proof.
  induction s as [|c s IH]; intros k v l F; cbn [app pairs].
  - rewrite app_nil_r. reflexivity.
  - pose proof (Forall_inv F) as H1. destruct (Z.eqb_spec c 34); [contradiction|]. rewrite IH by exact (Forall_inv_tail F). rewrite <- app_assoc. reflexivity.
Qed.
Definition spaced_rest (l : list Z) : Prop := l = [] \/ exists r, l = space :: r.
Lemma pairs_rest k v l : spaced_rest l -> pairs (Bare k v) l = r <- pairs (Key []) l ;; Some ((k, v) :: r).
Proof. intros [->|(r & ->)]; reflexivity. Qed.
Lemma pairs_bare : forall s k v l, List.Forall (fun c => is_space c = false) s -> spaced_rest l ->
  pairs (Bare k v) (s ++ l) = r <- pairs (Key []) l ;; Some ((k, v ++ s) :: r).
Proof.
  induction s as [|c s IH]; intros k v l F H; cbn [app pairs].
  - rewrite app_nil_r. apply pairs_rest. exact H.
  - rewrite (Forall_inv F), IH by (auto; exact (Forall_inv_tail F)). rewrite <- app_assoc. reflexivity.
Qed.
Lemma no_whitespace s : hasWhitespace s = false <-> List.Forall (fun c => is_space c = false) s.
Proof.
  unfold hasWhitespace. induction s as [|c s IH]; cbn [existsb]; [split; auto|]. rewrite orb_false_iff, IH. split.
  - intros [A B]. constructor; auto.
  - intros F. split; [exact (Forall_inv F)|exact (Forall_inv_tail F)].
Qed.
Lemma aux_read : forall aux, plain_aux aux -> exists info, storeAuxInfo aux = Some info /\ spaced_rest info /\
  List.Forall (fun c => c <> newline) info /\ pairs (Key []) info = Some aux.
Proof.
  induction aux as [|[key value] aux IH]; intros F; cbn [storeAuxInfo].
  - exists []. repeat split; auto. left. reflexivity.
  - pose proof (Forall_inv F) as [Hk Hv]. cbn [fst snd] in *. destruct (IH (Forall_inv_tail F)) as (info & Es & Sr & Nl & Ep).
    assert (Wk : hasWhitespace key = false) by (apply no_whitespace; eapply Forall_impl; [|exact Hk]; cbn; tauto). rewrite Wk, Es. eexists. split; [reflexivity|].
    assert (Kn : List.Forall (fun c => c <> newline) key) by (eapply Forall_impl; [|exact Hk]; intros c [H _] ->; discriminate H).
    assert (Vn : List.Forall (fun c => c <> newline) value) by (eapply Forall_impl; [|exact Hv]; cbn; tauto).
    assert (Vq : List.Forall (fun c => c <> 34) value) by (eapply Forall_impl; [|exact Hv]; cbn; tauto).
    split; [right; eauto|]. split.
    + constructor; [discriminate|]. rewrite !Forall_app. split; [exact Kn|]. split; [repeat constructor; discriminate|]. split; [|exact Nl].
      destruct (hasWhitespace value); [|exact Vn]. constructor; [discriminate|]. rewrite Forall_app. split; [exact Vn|]. repeat constructor. discriminate.
    + cbn [pairs]. change (Z.eqb space 61) with false. change (is_space space) with true. cbn iota. change (tx "=") with [61]. cbn [app].
      rewrite pairs_key by exact Hk. cbn [app]. destruct (hasWhitespace value) eqn:Wv.
      * cbn [app pairs]. unfold quote. change (Z.eqb 34 34) with true. cbn iota. rewrite <- app_assoc. cbn [app]. rewrite pairs_quoted by exact Vq. rewrite Ep. reflexivity.
      * apply no_whitespace in Wv. destruct value as [|c value].
        -- cbn [app]. destruct Sr as [->|(r & ->)]; cbn [pairs].
           ++ cbn in Ep. injection Ep as <-. reflexivity.
           ++ change (Z.eqb space 34) with false. change (is_space space) with true. cbn iota. cbn [pairs] in Ep. change (Z.eqb space 61) with false in Ep. change (is_space space) with true in Ep. cbn iota in Ep. rewrite Ep. reflexivity.
        -- cbn [app pairs]. pose proof (Forall_inv Vq) as Q1. cbn beta in Q1. destruct (Z.eqb_spec c 34); [contradiction|]. rewrite (Forall_inv Wv).
           rewrite pairs_bare by (auto; exact (Forall_inv_tail Wv)). rewrite Ep. reflexivity.
Qed.

(** *** Words *)
Lemma words_word : forall s w l, List.Forall (fun c => is_space c = false) s -> words w (s ++ l) = words (w ++ s) l.
Proof.
  induction s as [|c s IH]; intros w l F; cbn [app words]; [rewrite app_nil_r; reflexivity|].
  rewrite (Forall_inv F), IH by exact (Forall_inv_tail F). rewrite <- app_assoc. reflexivity.
Qed.
Lemma words_space w l : w <> [] -> words w (space :: l) = w :: words [] l.
Proof. intros N. cbn [words]. change (is_space space) with true. destruct w; [contradiction N; reflexivity|reflexivity]. Qed.

(** *** Frames *)
Section frames.
Variable show : R -> list Z.
Hypothesis numerals : forall x, numeral (show x).

Lemma show_nonempty x : show x <> []. Proof. apply numerals. Qed.
Lemma numeral_chars s : numeral s -> List.Forall (fun c => is_space c = false /\ c <> 34 /\ c <> newline /\ c <> 121) s.
Proof.
  intros [_ F]. eapply Forall_impl; [|exact F]. intros c [D|I].
  - unfold is_digit, newline, is_space in *. lia.
  - cbn in I. repeat (destruct I as [<-|I]; [repeat split; try reflexivity; discriminate|]). contradiction.
Qed.
Lemma show_space x : List.Forall (fun c => is_space c = false) (show x).
Proof. eapply Forall_impl; [|exact (numeral_chars _ (numerals x))]. cbn. tauto. Qed.
Lemma show_quote x : List.Forall (fun c => c <> 34) (show x).
Proof. eapply Forall_impl; [|exact (numeral_chars _ (numerals x))]. cbn. tauto. Qed.
Lemma show_newline x : List.Forall (fun c => c <> newline) (show x).
Proof. eapply Forall_impl; [|exact (numeral_chars _ (numerals x))]. cbn. tauto. Qed.
Lemma show_y x : List.Forall (fun c => c <> 121) (show x).
Proof. eapply Forall_impl; [|exact (numeral_chars _ (numerals x))]. cbn. tauto. Qed.

(** The beginning of the second line, up to the auxiliary info. *)
Definition head_line (b : mat) : list Z :=
  tx "Lattice=""" ++ show (m00 b) ++ [space] ++ show (m10 b) ++ [space] ++ show (m20 b) ++ [space] ++
        show (m01 b) ++ [space] ++ show (m11 b) ++ [space] ++ show (m21 b) ++ [space] ++
        show (m02 b) ++ [space] ++ show (m12 b) ++ [space] ++ show (m22 b) ++
        tx """ Properties=species:S:1:pos:R:3:orientation:R:4".
Ltac chars H := unfold head_line; rewrite !Forall_app; repeat apply conj; try (apply H); repeat constructor; discriminate.
Lemma head_newline b : List.Forall (fun c => c <> newline) (head_line b). Proof. chars show_newline. Qed.
Lemma head_y b : List.Forall (fun c => c <> 121) (head_line b). Proof. chars show_y. Qed.
Definition count (p : packing) : list Z := decimal (Z.of_nat (List.length (pk_shapes p))).
Definition shapes_text (p : packing) : list Z := flat_map (storeShape show) (pk_shapes p).
Lemma header_text p aux : storeHeader show p aux = i <- storeAuxInfo aux ;; Some (count p ++ newline :: head_line (pk_box p) ++ i ++ [newline]).
Proof. unfold storeHeader, head_line, count. destruct (storeAuxInfo aux) as [i|]; [|reflexivity]. cbv beta iota zeta delta [obind]. f_equal. repeat (rewrite <- app_assoc; cbn [app]). reflexivity. Qed.
Lemma write_text p aux : xyz_write show p aux = i <- storeAuxInfo aux ;; Some (count p ++ newline :: head_line (pk_box p) ++ i ++ newline :: shapes_text p).
Proof.
  unfold xyz_write. rewrite header_text. destruct (storeAuxInfo aux) as [i|]; [|reflexivity]. cbv beta iota zeta delta [obind]. f_equal. repeat (rewrite <- app_assoc; cbn [app]). reflexivity.
Qed.

Definition lattice (b : mat) : list Z :=
  joined space (List.map show [m00 b; m10 b; m20 b; m01 b; m11 b; m21 b; m02 b; m12 b; m22 b]).
Lemma lattice_quote b : List.Forall (fun c => c <> 34) (lattice b).
Proof. unfold lattice. cbn [List.map joined]. repeat first [rewrite Forall_app; split; [apply show_quote|] | constructor; [discriminate|]]; apply show_quote. Qed.
Lemma pairs_head b info : spaced_rest info ->
  pairs (Key []) (head_line b ++ info) = ps <- pairs (Key []) info ;; Some ((tx "Lattice", lattice b) :: (tx "Properties", tx "species:S:1:pos:R:3:orientation:R:4") :: ps).
Proof.
  intros Sr. replace (head_line b ++ info) with (tx "Lattice" ++ 61 :: 34 :: lattice b ++ 34 :: space :: tx "Properties" ++ 61 :: tx "species:S:1:pos:R:3:orientation:R:4" ++ info).
  2:{ unfold head_line, lattice. cbn [List.map joined]. repeat (rewrite <- app_assoc; cbn [app]). reflexivity. }
  rewrite pairs_key by (repeat constructor; discriminate). cbn [app]. cbn [pairs]. change (Z.eqb 34 34) with true. cbn iota.
  rewrite pairs_quoted by apply lattice_quote. cbn [pairs]. change (Z.eqb space 61) with false. change (is_space space) with true. cbn iota.
  rewrite pairs_key by (repeat constructor; discriminate). change (tx "species:S:1:pos:R:3:orientation:R:4") with (115 :: tx "pecies:S:1:pos:R:3:orientation:R:4"). cbn [app].
  cbn [pairs]. change (Z.eqb 115 34) with false. change (is_space 115) with false. cbn iota. rewrite pairs_bare by (auto; repeat constructor). destruct (pairs (Key []) info); reflexivity.
Qed.

Definition atom_line (s : shape) : list Z :=
  let q := quaternionFromMatrix (sh_rot s) in
  tx "A " ++ show (vx (sh_pos s)) ++ [space] ++ show (vy (sh_pos s)) ++ [space] ++ show (vz (sh_pos s)) ++ [space] ++
  show (qx q) ++ [space] ++ show (qy q) ++ [space] ++ show (qz q) ++ [space] ++ show (qw q).
Definition atom_words (s : shape) : list (list Z) :=
  let q := quaternionFromMatrix (sh_rot s) in
  tx "A" :: List.map show (components (sh_pos s)) ++ List.map show [qx q; qy q; qz q; qw q].
Lemma atom_text s : storeShape show s = atom_line s ++ [newline].
Proof. unfold storeShape, atom_line. cbv zeta. repeat (rewrite <- app_assoc; cbn [app]). reflexivity. Qed.
Lemma atom_newline s : List.Forall (fun c => c <> newline) (atom_line s).
Proof. unfold atom_line. cbv zeta. rewrite !Forall_app; repeat apply conj; try apply show_newline; repeat constructor; discriminate. Qed.
Lemma atom_split s : words [] (atom_line s) = atom_words s.
Proof.
  unfold atom_line, atom_words, components. cbv zeta. set (q := quaternionFromMatrix (sh_rot s)). change (tx "A ") with (tx "A" ++ [space]).
  repeat (rewrite <- app_assoc; cbn [app]). cbn [List.map app].
  rewrite words_word by (repeat constructor). rewrite words_space by discriminate. cbn [app]. f_equal.
  do 6 (rewrite words_word by apply show_space; cbn [app]; rewrite words_space by apply show_nonempty; f_equal).
  rewrite <- (app_nil_r (show (qw q))) at 1. rewrite words_word by apply show_space. cbn [app words]. destruct (show (qw q)) eqn:E; [destruct (show_nonempty _ E)|reflexivity].
Qed.
Lemma shapes_read : forall ss rest, read_atoms (List.length ss) (flat_map (storeShape show) ss ++ rest) = Some (List.map atom_words ss, rest).
Proof.
  induction ss as [|s ss IH]; intros rest; [reflexivity|]. cbn [List.length flat_map read_atoms]. rewrite atom_text. rewrite <- !app_assoc. cbn [app].
  rewrite getline_app by apply atom_newline. cbn [obind fst snd]. rewrite IH. cbn [obind fst snd List.map]. rewrite atom_split. reflexivity.
Qed.
Lemma atoms_good p : proper p -> Forall2 (atom_of show) (pk_shapes p) (List.map atom_words (pk_shapes p)).
Proof.
  intros [F _]. induction (pk_shapes p) as [|s ss IH]; [constructor|]. cbn [List.map]. constructor; [|apply IH; exact (Forall_inv_tail F)].
  destruct (quaternion_property _ (Forall_inv F)) as [U A]. exists (quaternionFromMatrix (sh_rot s)). split; [exact U|]. split; [exact A|]. reflexivity.
Qed.
Lemma columns_ex b : exists u v w, b = columns u v w /\ lattice b = joined space (List.map show (components u ++ components v ++ components w)).
Proof.
  exists (V3 (m00 b) (m10 b) (m20 b)), (V3 (m01 b) (m11 b) (m21 b)), (V3 (m02 b) (m12 b) (m22 b)). split; [destruct b; reflexivity|reflexivity].
Qed.
Lemma count_newline p : List.Forall (fun c => c <> newline) (count p).
Proof. unfold count. eapply Forall_impl; [|apply decimal_digits]. intros c H ->. discriminate H. Qed.
Lemma frame_read p aux : proper p -> plain_aux aux ->
  exists w, xyz_write show p aux = Some w /\ exists f, frame_of show p aux f /\ forall rest, read_frame (w ++ rest) = Some (f, rest).
Proof.
  intros Hp Ha. destruct (aux_read aux Ha) as (info & Es & Sr & Nl & Ep). rewrite write_text, Es. eexists. split; [reflexivity|].
  exists (Frame ((tx "Lattice", lattice (pk_box p)) :: (tx "Properties", tx "species:S:1:pos:R:3:orientation:R:4") :: aux) (List.map atom_words (pk_shapes p))). split.
  - split; [|apply atoms_good; exact Hp]. destruct (columns_ex (pk_box p)) as (u & v & w & Ec & El). exists u, v, w. split; [exact Ec|]. cbn [fr_pairs]. rewrite El. reflexivity.
  - intros rest. unfold read_frame. rewrite <- app_assoc. cbn [app]. rewrite getline_app by apply count_newline. cbn [obind fst snd].
    unfold count. rewrite <- (app_nil_r (decimal _)). rewrite extract_decimal by (destruct Hp; cbn; auto; lia). cbn [obind fst].
    rewrite <- !app_assoc. cbn [app]. rewrite app_assoc. rewrite getline_app by (rewrite Forall_app; split; [apply head_newline|exact Nl]). cbn [obind fst snd].
    rewrite (pairs_head _ _ Sr), Ep. cbn [obind]. rewrite Nat2Z.id. unfold shapes_text. rewrite shapes_read. reflexivity.
Qed.
(** A quotation mark in a value. *)
Lemma quote_lost p : proper p -> exists w, xyz_write show p [(tx "k", tx "a"" b")] = Some w /\ read_frame w = None.
Proof.
  intros Hp. rewrite write_text. eexists. split; [reflexivity|]. unfold read_frame. rewrite getline_app by apply count_newline. cbn [obind fst snd].
  unfold count. rewrite <- (app_nil_r (decimal _)). rewrite extract_decimal by (destruct Hp; cbn; auto; lia). cbn [obind fst].
  rewrite app_assoc. rewrite getline_app by (rewrite Forall_app; split; [apply head_newline|repeat constructor; discriminate]). cbn [obind fst snd].
  rewrite pairs_head by (right; eexists; reflexivity). reflexivity.
Qed.
End frames.
