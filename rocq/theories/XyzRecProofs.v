From Coq Require Import Decimal DecimalN Reals ZArith NArith List Bool Lia ZifyBool ZifyNat String.
From Verif Require Import TextModel TextProofs LinesModel LinesSpec LinesProofs StringsModel StringsSpec StringsProofs
  GeomModel PbcModel RotModel RotSpec XyzModel XyzSpec XyzTextProofs OptModel.
Import ListNotations.
Local Open Scope list_scope.
Open Scope Z_scope.

(** *** Digits *)
Definition step (a c : Z) : Z := 10 * a + (c - 48).
Definition val (l : list Z) : Z := fold_left step l 0.
Lemma acc_val : forall u acc, Z.pos (Pos.of_uint_acc u acc) = fold_left step (uint_text u) (Z.pos acc).
Proof.
  induction u; intros acc; [reflexivity|..];
    match goal with |- Z.pos (Pos.of_uint_acc ?v acc) = _ => let r := eval cbn [Pos.of_uint_acc] in (Pos.of_uint_acc v acc) in
      change (Pos.of_uint_acc v acc) with r end; rewrite IHu; cbn [uint_text fold_left]; f_equal; unfold step; lia.
Qed.
Lemma uint_val : forall u, Z.of_N (N.of_uint u) = val (uint_text u).
Proof. unfold N.of_uint, val. induction u; [reflexivity|cbn [Pos.of_uint uint_text fold_left]; exact IHu|..]; cbn [Pos.of_uint uint_text fold_left Z.of_N]; rewrite acc_val; reflexivity. Qed.
Lemma decimal_val z : 0 <= z -> val (decimal z) = z.
Proof. intros H. unfold decimal. rewrite <- uint_val, DecimalN.Unsigned.of_to. lia. Qed.
Lemma fold_step : forall l a, fold_left step l a = a * 10 ^ Z.of_nat (List.length l) + val l.
Proof.
  unfold val. induction l as [|c l IH]; intros a; [cbn; lia|]. cbn [fold_left List.length]. rewrite IH, (IH (step 0 c)). rewrite Nat2Z.inj_succ, Z.pow_succ_r by lia. unfold step. lia.
Qed.
Lemma val_app a b : val (a ++ b) = val a * 10 ^ Z.of_nat (List.length b) + val b.
Proof. unfold val at 1. rewrite fold_left_app. fold (val a). apply fold_step. Qed.
Definition digits (l : list Z) : Prop := List.Forall (fun c => is_digit c = true) l.
Lemma val_bounds : forall l, digits l -> 0 <= val l < 10 ^ Z.of_nat (List.length l).
Proof.
  induction l as [|c l IH] using rev_ind; intros F; [cbn; lia|]. apply Forall_app in F. destruct F as [F Fc]. specialize (IH F). pose proof (Forall_inv Fc) as D.
  rewrite val_app, app_length. cbn [List.length]. rewrite Nat2Z.inj_add, Z.pow_add_r by lia. change (10 ^ Z.of_nat 1) with 10. change (val [c]) with (10 * 0 + (c - 48)). unfold is_digit in D. nia.
Qed.
Lemma digits_uint : forall l, digits l -> exists u, l = uint_text u.
Proof.
  induction l as [|c l IH]; intros F; [exists Nil; reflexivity|]. destruct (IH (Forall_inv_tail F)) as [u ->]. pose proof (Forall_inv F) as D. unfold is_digit in D.
  assert (c = 48 \/ c = 49 \/ c = 50 \/ c = 51 \/ c = 52 \/ c = 53 \/ c = 54 \/ c = 55 \/ c = 56 \/ c = 57) as H by lia.
  repeat destruct H as [->|H]; [exists (D0 u)|exists (D1 u)|exists (D2 u)|exists (D3 u)|exists (D4 u)|exists (D5 u)|exists (D6 u)|exists (D7 u)|exists (D8 u)|subst c; exists (D9 u)]; reflexivity.
Qed.
Lemma extract_digits d l : digits d -> d <> [] -> ends_digits l ->
  extract_size (d ++ l) = if Z.leb (2 ^ 64) (val d) then None else Some (val d, l).
Proof.
  intros F N E. destruct (digits_uint d F) as [u ->]. destruct (uint_text u) as [|c r] eqn:Eu; [contradiction N; reflexivity|]. pose proof (Forall_inv F) as D. cbn beta in D.
  unfold extract_size. rewrite skip_ws_none by (cbn [app]; apply digit_not_space; exact D).
  assert (H : (match (c :: r) ++ l with 45 :: r0 => (true, r0) | 43 :: r0 => (false, r0) | _ => (false, (c :: r) ++ l) end) = (false, (c :: r) ++ l)).
  { cbn [app]. unfold is_digit in D. destruct c as [|c|c]; try reflexivity. do 6 (destruct c as [c|c|]; try reflexivity); try (cbn in D; discriminate D). }
  rewrite H. rewrite <- Eu, take_uint by exact E. destruct u; try (discriminate Eu); rewrite uint_val; reflexivity.
Qed.

(** *** The last header is found *)
Definition header (l : list Z) : bool := startsWith l (tx "Lattice").
Definition number (l : list Z) : option Z := pos <- find l (tx "cycles=") 0 ;; n <- extract_size (skipn (pos + 7) l) ;; Some (fst n).
Fixpoint back_find (rps : list (list Z)) : option (Z * nat) :=
  match rps with
  | [] => None
  | p :: r => if header p then n <- number p ;; Some (n, List.length (joined newline (rev r))) else back_find r
  end.
Lemma find_step fuel s line s' : getlineBackwards newline s = (s', line) -> sm_fail s' = false ->
  find_loop (S fuel) s = if header line then n <- number line ;; Some (n, sm_pos s') else find_loop fuel s'.
Proof.
  intros E F. cbn [find_loop]. rewrite E. cbn [fst snd]. rewrite F. fold (header line). destruct (header line); cbn [negb]; [|reflexivity].
  unfold number. destruct (find line (tx "cycles=") 0) as [pos|]; cbn [obind]; [|reflexivity]. destruct (extract_size _) as [n|]; reflexivity.
Qed.
Lemma find_at_start fuel t : find_loop fuel (Stream t 0 false) = None.
Proof. destruct fuel; reflexivity. Qed.
Lemma find_back : forall ps rest fuel, ps <> [] -> List.Forall (List.Forall (fun c => c <> newline)) ps -> (rest = [] \/ exists r, rest = newline :: r) -> (List.length ps <= fuel)%nat ->
  find_loop fuel (Stream (joined newline ps ++ rest) (List.length (joined newline ps)) false) = back_find (rev ps).
Proof.
  intros ps. induction ps as [|p ps IH] using rev_ind; intros rest fuel N F R L; [contradiction N; reflexivity|]. apply Forall_app in F. destruct F as [F Fp]. pose proof (Forall_inv Fp) as Hp.
  rewrite app_length in L. cbn [List.length] in L. destruct fuel as [|fuel]; [lia|]. rewrite rev_app_distr. cbn [rev app back_find]. rewrite rev_involutive.
  destruct ps as [|q ps].
  - cbn [app joined rev back_find List.length]. destruct p as [|x p].
    + reflexivity.
    + rewrite (find_step fuel _ (x :: p) _ (read_first newline (x :: p) rest Hp ltac:(discriminate) R) eq_refl). cbn [sm_pos]. rewrite find_at_start. reflexivity.
  - destruct (list_eq_dec Z.eq_dec (joined newline (q :: ps)) []) as [Ej|Nj].
    + assert (q = [] /\ ps = []) as [-> ->]. { destruct ps as [|q' ps]; [cbn in Ej; auto|]. assert (E : joined newline (q :: q' :: ps) = q ++ newline :: joined newline (q' :: ps)) by reflexivity. rewrite E in Ej. destruct q; discriminate. }
      cbn [app joined rev back_find List.length]. change (S (List.length p)) with (1 + List.length p)%nat. rewrite (find_step fuel _ p _ (read_second newline p rest Hp R) eq_refl). cbn [sm_pos]. rewrite find_at_start. reflexivity.
    + rewrite joined_length, joined_snoc by discriminate. rewrite <- app_assoc. cbn [app].
      rewrite (find_step fuel _ p _ (read_piece newline (joined newline (q :: ps)) p rest Hp ltac:(destruct (joined newline (q :: ps)); [contradiction Nj; reflexivity|cbn; lia]) R) eq_refl). cbn [sm_pos].
      destruct (header p); [reflexivity|]. apply IH; [discriminate|exact F|right; eauto|lia].
Qed.
Lemma pieces_length d : forall ps, (List.length ps <= S (List.length (joined d ps)))%nat.
Proof.
  induction ps as [|p ps IH]; [cbn; lia|]. destruct ps as [|q ps]; [cbn; lia|]. change (joined d (p :: q :: ps)) with (p ++ d :: joined d (q :: ps)). rewrite app_length. cbn [List.length] in *. lia.
Qed.
Definition rewound (s : iostream) (pos : nat) : iostream := seekg pos (seekg_end (seekp_end s)).
Lemma append_any s ps : io_text s <> [] -> pieces_of newline (io_text s) ps ->
  xyz_recorder (Some s) true = match back_find (rev ps) with Some (n, pos) => Done (Recorder (Some (rewound s pos)) n) | None => Invalid end.
Proof.
  intros N (Np & F & Et). unfold xyz_recorder. cbn [io_put seekp_end seekp].
  assert (L : Nat.eqb (List.length (io_text s)) 0 = false) by (destruct (io_text s); [contradiction N; reflexivity|reflexivity]). rewrite L. cbn [negb].
  unfold findLastCycleNumber. cbn [io_text seekg_end seekg seekp_end seekp io_get].
  replace (Stream (io_text s) (List.length (io_text s)) false) with (Stream (joined newline ps ++ []) (List.length (joined newline ps)) false) by (rewrite app_nil_r, <- Et; reflexivity).
  rewrite find_back; auto; [|rewrite Et; pose proof (pieces_length newline ps); lia].
  destruct (back_find (rev ps)) as [[n pos]|]; reflexivity.
Qed.
Lemma back_skip : forall xs r, List.Forall (fun l => header l = false) xs -> back_find (xs ++ r) = back_find r.
Proof. induction xs as [|x xs IH]; intros r F; [reflexivity|]. cbn [app back_find]. rewrite (Forall_inv F). apply IH. exact (Forall_inv_tail F). Qed.
Lemma back_hit qs h ss : header h = true -> List.Forall (fun l => header l = false) ss ->
  back_find (rev (qs ++ h :: ss)) = n <- number h ;; Some (n, List.length (joined newline qs)).
Proof.
  intros H F. rewrite rev_app_distr. cbn [rev]. rewrite <- app_assoc, back_skip by (apply Forall_rev; exact F). cbn [app back_find]. rewrite H, rev_involutive. reflexivity.
Qed.
Lemma back_none ps : List.Forall (fun l => header l = false) ps -> back_find (rev ps) = None.
Proof. intros F. rewrite <- (app_nil_r (rev ps)). rewrite back_skip by (apply Forall_rev; exact F). reflexivity. Qed.

(** The number after the first "cycles=". *)
Lemma find_first l s : find l s 0 = match find_from s l 0 with Some p => Some p | None => None end.
Proof. unfold find. cbn [Nat.leb skipn]. destruct (find_from s l 0); reflexivity. Qed.
Lemma number_first a b : (forall a' b', a ++ tx "cycles=" ++ b = a' ++ tx "cycles=" ++ b' -> (List.length a <= List.length a')%nat) ->
  number (a ++ tx "cycles=" ++ b) = n <- extract_size b ;; Some (fst n).
Proof.
  intros M. unfold number. rewrite find_first. destruct (find_from (tx "cycles=") (a ++ tx "cycles=" ++ b) 0) as [p|] eqn:E.
  - apply find_from_some in E. destruct E as (a' & b' & E & -> & M'). pose proof (M a' b' E). pose proof (M' a b eq_refl). cbn [obind].
    assert (Ls : (0 + List.length a' + 7 = List.length (a ++ tx "cycles="))%nat) by (rewrite app_length; change (List.length (tx "cycles=")) with 7%nat; lia).
    rewrite Ls, app_assoc, skipn_app, skipn_all, Nat.sub_diag. reflexivity.
  - apply find_from_none in E. destruct E. exists a, b. reflexivity.
Qed.
Lemma number_none l : ~ occurs (tx "cycles=") l -> number l = None.
Proof.
  intros N. unfold number. rewrite find_first. destruct (find_from (tx "cycles=") l 0) as [p|] eqn:E; [|reflexivity].
  apply find_from_some in E. destruct E as (a' & b' & E & _). destruct N. exists a', b'. exact E.
Qed.
(** In the line of a snapshot. *)
Definition no_y (l : list Z) : Prop := List.Forall (fun c => c <> 121) l.
Lemma nth_y g d i : no_y g -> no_y d -> nth_error (g ++ tx "cycles=" ++ d) i = Some 121 -> i = S (List.length g).
Proof.
  intros Hg Hd H. destruct (Nat.ltb_spec i (List.length g)) as [L|L].
  - rewrite nth_error_app1 in H by exact L. apply nth_error_In in H. unfold no_y in Hg. rewrite Forall_forall in Hg. destruct (Hg _ H eq_refl).
  - rewrite nth_error_app2 in H by exact L. remember (i - List.length g)%nat as j eqn:Ej. destruct (Nat.ltb_spec j 7) as [L2|L2].
    + do 7 (destruct j as [|j]; [try discriminate H; lia|]). lia.
    + rewrite nth_error_app2 in H by exact L2. apply nth_error_In in H. unfold no_y in Hd. rewrite Forall_forall in Hd. destruct (Hd _ H eq_refl).
Qed.
Lemma only_place g d x y a b : no_y g -> no_y d -> g ++ tx "cycles=" ++ d = x ++ y -> x = a ++ tx "cycles=" ++ b -> List.length a = List.length g.
Proof.
  intros Hg Hd E Ex. assert (H : nth_error (g ++ tx "cycles=" ++ d) (S (List.length a)) = Some 121).
  { rewrite E, Ex. rewrite <- app_assoc. rewrite nth_error_app2 by lia. replace (S (List.length a) - List.length a)%nat with 1%nat by lia. reflexivity. }
  apply nth_y in H; auto.
Qed.
Lemma number_line g d : no_y g -> no_y d -> number (g ++ tx "cycles=" ++ d) = n <- extract_size d ;; Some (fst n).
Proof.
  intros Hg Hd. apply number_first. intros a' b' E. rewrite (only_place g d _ [] a' b' Hg Hd (eq_sym (app_nil_r _)) E). lia.
Qed.
Lemma number_short g x y : no_y g -> g ++ tx "cycles=" = x ++ y -> number x = None.
Proof.
  intros Hg E. destruct y as [|c y].
  - rewrite app_nil_r in E. subst x. rewrite <- (app_nil_r (tx "cycles=")). rewrite number_line by (auto; constructor). reflexivity.
  - apply number_none. intros (a & b & Ex). assert (La : List.length a = List.length g).
    { apply (only_place g [] x (c :: y) a b); [exact Hg|constructor|rewrite app_nil_r; exact E|exact Ex]. }
    apply (f_equal (@List.length Z)) in E. rewrite Ex, !app_length in E. cbn [List.length] in E. lia.
Qed.
