From Coq Require Import ZArith List Bool Lia ZifyBool ZifyNat.
From Verif Require Import OptModel TextModel TextProofs LinesModel LinesSpec.
Import ListNotations.
Open Scope Z_scope.

Lemma joined_snoc d : forall ps p, ps <> [] -> joined d (ps ++ [p]) = joined d ps ++ d :: p.
Proof.
  induction ps as [|q ps IH]; intros p N; [contradiction N; reflexivity|]. destruct ps as [|q' ps]; [reflexivity|].
  assert (E : forall t, joined d (q :: q' :: t) = q ++ d :: joined d (q' :: t)) by reflexivity. cbn [app] in *. rewrite !E, IH by discriminate. rewrite <- app_assoc. reflexivity.
Qed.
Lemma search_to d : forall p a c, length (a ++ d :: c) <> 0%nat -> Forall (fun x => x <> d) c -> (length a < p <= length a + 1 + length c)%nat -> (0 < length a)%nat -> search_back d p (a ++ d :: c) = length a.
Proof.
  induction p as [|q IH]; intros a c N F H Ha; [lia|]. cbn [search_back]. destruct (Nat.eqb_spec q 0) as [->|Hq]; [lia|]. cbn [orb].
  destruct (Nat.eq_dec q (length a)) as [->|Hn]. { rewrite nth_error_app2, Nat.sub_diag by lia. cbn [nth_error]. rewrite Z.eqb_refl. reflexivity. }
  rewrite nth_error_app2 by lia. destruct (q - length a)%nat as [|i] eqn:Ei; [lia|]. cbn [nth_error]. destruct (nth_error c i) as [x|] eqn:Ex; [|apply nth_error_None in Ex; lia].
  rewrite Forall_forall in F. pose proof (F x (nth_error_In _ _ Ex)) as Hx. destruct (Z.eqb_spec x d); [contradiction|]. apply IH; auto; [|lia]. apply Forall_forall. exact F.
Qed.
Lemma search_start d : forall p l, Forall (fun x => x <> d) (tl l) -> (p <= length l)%nat -> search_back d p l = 0%nat.
Proof.
  induction p as [|q IH]; intros l F H; [reflexivity|]. cbn [search_back]. destruct (Nat.eqb_spec q 0) as [->|Hq]; [reflexivity|]. cbn [orb].
  destruct l as [|y l]; [cbn in H; lia|]. destruct q as [|i]; [lia|]. cbn [nth_error tl length] in *. destruct (nth_error l i) as [x|] eqn:Ex; [|apply nth_error_None in Ex; lia].
  rewrite Forall_forall in F. pose proof (F x (nth_error_In _ _ Ex)) as Hx. destruct (Z.eqb_spec x d); [contradiction|]. apply IH; [|cbn; lia]. apply Forall_forall. exact F.
Qed.
Lemma line_of d r : match r with [] => [] | x :: r' => fst (take_line d (x :: r')) end = fst (take_line d r).
Proof. destruct r; reflexivity. Qed.
(** The position is at a delimiter or at the end: the piece before it is read. *)
Lemma read_piece d a c rest : Forall (fun x => x <> d) c -> (0 < length a)%nat -> (rest = [] \/ exists r, rest = d :: r) ->
  getlineBackwards d (Stream (a ++ d :: c ++ rest) (length a + 1 + length c) false) = (Stream (a ++ d :: c ++ rest) (length a) false, c).
Proof.
  intros F Ha R. unfold getlineBackwards. cbn [sm_fail sm_pos sm_text]. destruct (Nat.eqb_spec (length a + 1 + length c) 0); [lia|].
  assert (S : search_back d (length a + 1 + length c) (a ++ d :: c ++ rest) = length a).
  { assert (P : forall p, (p <= length a + 1 + length c)%nat -> search_back d p (a ++ d :: c ++ rest) = search_back d p (a ++ d :: c)).
    { induction p as [|q IH]; intros Hp; [reflexivity|]. cbn [search_back].
      assert (nth_error (a ++ d :: c ++ rest) q = nth_error (a ++ d :: c) q) as -> by (change (a ++ d :: c ++ rest) with (a ++ (d :: c) ++ rest); rewrite app_assoc; apply nth_error_app1; rewrite app_length; cbn; lia).
      rewrite IH by lia. reflexivity. }
    rewrite P by lia. apply search_to; auto; [rewrite app_length; cbn; lia|lia]. }
  rewrite S. rewrite nth_error_app2, Nat.sub_diag by lia. cbn [nth_error]. rewrite Z.eqb_refl. f_equal.
  replace (skipn (Datatypes.S (length a)) (a ++ d :: c ++ rest)) with (c ++ rest).
  2:{ change (a ++ d :: c ++ rest) with (a ++ [d] ++ (c ++ rest)). rewrite app_assoc, skipn_app, skipn_all2 by (rewrite app_length; cbn; lia). rewrite app_length. cbn [length]. replace (Datatypes.S (length a) - (length a + 1))%nat with 0%nat by lia. reflexivity. }
  rewrite line_of. destruct R as [->|(r & ->)]; [rewrite app_nil_r, take_line_end by auto; reflexivity|rewrite take_line_app by auto; reflexivity].
Qed.
Lemma read_first d c rest : Forall (fun x => x <> d) c -> c <> [] -> (rest = [] \/ exists r, rest = d :: r) ->
  getlineBackwards d (Stream (c ++ rest) (length c) false) = (Stream (c ++ rest) 0 false, c).
Proof.
  intros F N R. unfold getlineBackwards. cbn [sm_fail sm_pos sm_text]. destruct c as [|x c]; [contradiction N; reflexivity|]. cbn [length Nat.eqb]. inversion F; subst.
  assert (S : search_back d (Datatypes.S (length c)) ((x :: c) ++ rest) = 0%nat).
  { assert (P : forall p, (p <= Datatypes.S (length c))%nat -> search_back d p ((x :: c) ++ rest) = search_back d p (x :: c)).
    { induction p as [|q IH]; intros Hp; [reflexivity|]. cbn [search_back]. rewrite nth_error_app1 by (cbn; lia). rewrite IH by lia. reflexivity. }
    rewrite P by lia. apply search_start; auto. }
  rewrite S. cbn [nth_error app]. destruct (Z.eqb_spec x d); [contradiction|]. cbn [skipn]. f_equal. change (x :: c ++ rest) with ((x :: c) ++ rest).
  destruct R as [->|(r & ->)]; [rewrite app_nil_r, take_line_end by auto; reflexivity|rewrite take_line_app by auto; reflexivity].
Qed.
Lemma read_second d c rest : Forall (fun x => x <> d) c -> (rest = [] \/ exists r, rest = d :: r) ->
  getlineBackwards d (Stream (d :: c ++ rest) (1 + length c) false) = (Stream (d :: c ++ rest) 0 false, c).
Proof.
  intros F R. unfold getlineBackwards. cbn [sm_fail sm_pos sm_text]. cbn [Nat.add Nat.eqb].
  assert (S : search_back d (Datatypes.S (length c)) (d :: c ++ rest) = 0%nat).
  { assert (P : forall p, (p <= Datatypes.S (length c))%nat -> search_back d p ((d :: c) ++ rest) = search_back d p (d :: c)).
    { induction p as [|q IH]; intros Hp; [reflexivity|]. cbn [search_back]. rewrite nth_error_app1 by (cbn; lia). rewrite IH by lia. reflexivity. }
    change (d :: c ++ rest) with ((d :: c) ++ rest). rewrite P by lia. apply search_start; auto. }
  rewrite S. cbn [nth_error]. rewrite Z.eqb_refl. cbn [skipn]. f_equal.
  rewrite line_of. destruct R as [->|(r & ->)]; [rewrite app_nil_r, take_line_end by auto; reflexivity|rewrite take_line_app by auto; reflexivity].
Qed.
Lemma at_start d l k : backwards d k (Stream l 0 false) = repeat None k.
Proof.
  destruct k as [|k]; [reflexivity|]. cbn [backwards]. unfold getlineBackwards at 1. cbn [sm_fail sm_pos Nat.eqb fst sm_text]. f_equal. unfold getlineBackwards. cbn [sm_fail sm_pos Nat.eqb fst sm_text].
  induction k as [|k IH]; [reflexivity|]. cbn [backwards]. unfold getlineBackwards. cbn [sm_fail fst repeat]. f_equal. exact IH.
Qed.
Lemma joined_length d ps p : ps <> [] -> length (joined d (ps ++ [p])) = (length (joined d ps) + 1 + length p)%nat.
Proof. intros N. rewrite joined_snoc by auto. rewrite app_length. cbn [length]. lia. Qed.
Lemma all_backwards d : forall ps rest k, ps <> [] -> Forall (Forall (fun c => c <> d)) ps -> (rest = [] \/ exists r, rest = d :: r) ->
  backwards d (length (reported ps) + k) (Stream (joined d ps ++ rest) (length (joined d ps)) false) = map Some (rev (reported ps)) ++ repeat None k.
Proof.
  intros ps. induction ps as [|p ps IH] using rev_ind; intros rest k N F R; [contradiction N; reflexivity|]. apply Forall_app in F. destruct F as [F Fp]. inversion Fp; subst.
  destruct ps as [|q ps].
  - cbn [app joined reported]. destruct p as [|x p].
    + cbn [length reported Nat.add app rev map joined]. apply at_start.
    + cbn [length reported Nat.add backwards joined]. rewrite read_first by (auto; discriminate). cbn [fst snd sm_fail map rev app]. f_equal. apply at_start.
  - destruct (list_eq_dec Z.eq_dec (joined d (q :: ps)) []) as [Ej|Nj].
    + (* only an empty piece before *)
      assert (q = [] /\ ps = []) as [-> ->]. { destruct ps as [|q' ps]; [cbn in Ej; auto|]. assert (E : joined d (q :: q' :: ps) = q ++ d :: joined d (q' :: ps)) by reflexivity. rewrite E in Ej. destruct q; discriminate. }
      cbn [app joined reported length Nat.add backwards]. change (Datatypes.S (length p)) with (1 + length p)%nat. rewrite read_second by auto. cbn [fst snd sm_fail map rev app]. f_equal. apply at_start.
    + rewrite joined_length, joined_snoc by discriminate.
      assert (Er : reported ((q :: ps) ++ [p]) = reported (q :: ps) ++ [p]) by (destruct q; reflexivity). rewrite Er, app_length, rev_app_distr. cbn [length rev map app].
      replace (length (reported (q :: ps)) + 1 + k)%nat with (Datatypes.S (length (reported (q :: ps)) + k)) by lia. cbn [backwards]. rewrite <- app_assoc. cbn [app].
      rewrite read_piece; auto; [|destruct (joined d (q :: ps)); [contradiction Nj; reflexivity|cbn; lia]]. cbn [fst snd sm_fail]. f_equal.
      apply (IH (d :: p ++ rest) k); [discriminate|exact F|right; eauto].
Qed.
Lemma backwards_lines d l ps k : pieces_of d l ps -> backwards d (length (reported ps) + k) (seek_end l) = map Some (rev (reported ps)) ++ repeat None k.
Proof. intros (N & F & ->). unfold seek_end. rewrite <- (app_nil_r (joined d ps)) at 1. apply all_backwards; auto. Qed.
(** Every text has pieces. *)
Lemma pieces_exist d : forall l, exists ps, pieces_of d l ps.
Proof.
  induction l as [|c l (ps & N & F & E)]; [exists [[]]; split; [discriminate|]; split; [repeat constructor|reflexivity]|].
  destruct (Z.eq_dec c d) as [->|Hc].
  - exists ([] :: ps). split; [discriminate|]. split; [constructor; auto|]. destruct ps as [|p ps]; [contradiction N; reflexivity|]. rewrite E. reflexivity.
  - destruct ps as [|p ps]; [contradiction N; reflexivity|]. inversion F; subst. exists ((c :: p) :: ps). split; [discriminate|]. split; [constructor; auto|]. destruct ps; reflexivity.
Qed.
Lemma pieces_unique d : forall l ps qs, pieces_of d l ps -> pieces_of d l qs -> ps = qs.
Proof.
  assert (K : forall ps qs, ps <> [] -> qs <> [] -> Forall (Forall (fun c => c <> d)) ps -> Forall (Forall (fun c => c <> d)) qs -> joined d ps = joined d qs -> ps = qs).
  { induction ps as [|p ps IH]; intros qs Np Nq Fp Fq E; [contradiction Np; reflexivity|]. destruct qs as [|q qs]; [contradiction Nq; reflexivity|].
    inversion Fp as [|? ? Hp Fp']; subst. inversion Fq as [|? ? Hq Fq']; subst.
    assert (Jp : joined d (p :: ps) = p ++ match ps with [] => [] | _ => d :: joined d ps end) by (destruct ps; [symmetry; apply app_nil_r|reflexivity]).
    assert (Jq : joined d (q :: qs) = q ++ match qs with [] => [] | _ => d :: joined d qs end) by (destruct qs; [symmetry; apply app_nil_r|reflexivity]).
    rewrite Jp, Jq in E. clear Jp Jq Fp Fq Np Nq.
    assert (A : forall p q a b, Forall (fun c => c <> d) p -> Forall (fun c => c <> d) q -> (a = [] \/ exists r, a = d :: r) -> (b = [] \/ exists r, b = d :: r) -> p ++ a = q ++ b -> p = q /\ a = b).
    { clear. induction p as [|x p IH]; intros q a b Hp Hq Ha Hb E; destruct q as [|y q]; cbn [app] in *; auto.
      - exfalso. pose proof (Forall_inv Hq) as H0. destruct Ha as [Ha|[r Ha]]; rewrite Ha in E; [discriminate|]. injection E as E' _. apply H0. symmetry. exact E'.
      - exfalso. pose proof (Forall_inv Hp) as H0. destruct Hb as [Hb|[r Hb]]; rewrite Hb in E; [discriminate|]. injection E as E' _. apply H0. exact E'.
      - injection E as Exy E'. destruct (IH q a b (Forall_inv_tail Hp) (Forall_inv_tail Hq) Ha Hb E') as [-> ->]. subst y. auto. }
    eapply A in E; [|exact Hp|exact Hq|destruct ps; eauto|destruct qs; eauto]. destruct E as [-> E2]. f_equal.
    destruct ps as [|p' ps], qs as [|q' qs]; try discriminate; [reflexivity|]. injection E2 as E2. apply IH; auto; discriminate. }
  intros l ps qs (Np & Fp & Ep) (Nq & Fq & Eq). apply K; auto. congruence.
Qed.
Lemma first_lost : exists d l ps, pieces_of d l ps /\ forall n, ~ In (Some (hd [] ps)) (backwards d n (seek_end l)).
Proof.
  exists 10, [10; 97], [[]; [97]]. assert (P : pieces_of 10 [10; 97] [[]; [97]]).
  { split; [discriminate|]. split; [|reflexivity]. constructor; [constructor|]. constructor; [constructor; [discriminate|constructor]|constructor]. }
  split; [exact P|]. intros [|n]; [intros []|]. change (S n) with (Nat.add (length (reported [[]; [97]])) n). rewrite (backwards_lines _ _ _ n P). cbn [hd reported rev app map].
  intros [H|H]; [discriminate|]. apply repeat_spec in H. discriminate.
Qed.
