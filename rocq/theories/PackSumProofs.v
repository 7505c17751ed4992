From Coq Require Import Reals ZArith List Bool Lia Lra Permutation.
From Verif Require Import GeomModel NGModel PackModel PackSpec NGGeomProofs NGProofs.
Import ListNotations.
Open Scope R_scope.

(** *** Rsum *)
Lemma Rsum_app {A} (w : A -> R) l l' : Rsum w (l ++ l') = Rsum w l + Rsum w l'.
Proof. induction l as [|x l IH]; simpl; [lra|]. rewrite IH. lra. Qed.
Lemma Rsum_perm {A} (w : A -> R) l l' : Permutation l l' -> Rsum w l = Rsum w l'.
Proof. induction 1; simpl; lra. Qed.
Lemma Rsum_ext {A} (w w' : A -> R) l : (forall x, In x l -> w x = w' x) -> Rsum w l = Rsum w' l.
Proof. induction l as [|x l IH]; simpl; intros H; auto. rewrite H by auto. rewrite IH; auto. Qed.
Lemma Rsum_map {A B} (f : A -> B) (w : B -> R) l : Rsum w (map f l) = Rsum (fun x => w (f x)) l.
Proof. induction l as [|x l IH]; simpl; auto. rewrite IH; auto. Qed.
Lemma Rsum_flat {A B} (g : A -> list B) (w : B -> R) l : Rsum w (flat_map g l) = Rsum (fun x => Rsum w (g x)) l.
Proof. induction l as [|x l IH]; simpl; auto. rewrite Rsum_app, IH; auto. Qed.
Lemma Rsum_filter {A} (w : A -> R) (p : A -> bool) l : (forall x, In x l -> p x = false -> w x = 0) ->
  Rsum w (filter p l) = Rsum w l.
Proof.
  induction l as [|x l IH]; simpl; intros H; auto. destruct (p x) eqn:E; simpl; rewrite IH; auto.
  rewrite (H x) by auto. lra.
Qed.
Lemma Rsum_zero {A} (w : A -> R) l : (forall x, In x l -> w x = 0) -> Rsum w l = 0.
Proof. induction l as [|x l IH]; simpl; intros H; auto. rewrite H by auto. rewrite IH; auto. lra. Qed.
Lemma Rsum_plus {A} (w w' : A -> R) l : Rsum (fun x => w x + w' x) l = Rsum w l + Rsum w' l.
Proof. induction l as [|x l IH]; simpl; [lra|]. rewrite IH. lra. Qed.

Definition nz {A} (w : A -> R) (x : A) : bool := negb (Reqb (w x) 0).
Lemma nz_true {A} (w : A -> R) x : nz w x = true <-> w x <> 0.
Proof. unfold nz, Reqb. destruct (Req_EM_T (w x) 0); simpl; split; intros; try easy; auto. Qed.
Lemma nz_false {A} (w : A -> R) x : nz w x = false <-> w x = 0.
Proof. unfold nz, Reqb. destruct (Req_EM_T (w x) 0); simpl; split; intros; try easy; auto. Qed.
Lemma Rsum_nz {A} (w : A -> R) l : Rsum w (filter (nz w) l) = Rsum w l.
Proof. apply Rsum_filter. intros x _ H. apply nz_false, H. Qed.

(** *** sums_to *)
Lemma sums_to_unique {A} (P : A -> Prop) w s s' : sums_to P w s -> sums_to P w s' -> s = s'.
Proof.
  intros (l & N & I & C & ->) (l' & N' & I' & C' & ->). rewrite <- (Rsum_nz w l), <- (Rsum_nz w l').
  apply Rsum_perm. apply NoDup_Permutation; try (apply NoDup_filter; auto).
  intros x. rewrite !filter_In, !nz_true. split; intros [H1 H2]; auto.
Qed.
Lemma sums_to_ext {A} (P P' : A -> Prop) w w' s : (forall x, P x <-> P' x) -> (forall x, P x -> w x = w' x) ->
  sums_to P w s -> sums_to P' w' s.
Proof.
  intros HP Hw (l & N & I & C & ->). exists l. split; auto. split; [intros x Hx; apply HP; auto|]. split.
  - intros x Hx Hn. apply HP in Hx. apply C; auto. rewrite Hw; auto.
  - apply Rsum_ext. auto.
Qed.
(** Transport along a map that is injective and onto as far as non-zero weights are concerned. *)
Lemma sums_to_map {A B} (P : A -> Prop) (Q : B -> Prop) (f : A -> B) w w' s :
  (forall x, P x -> Q (f x)) -> (forall x y, P x -> P y -> f x = f y -> x = y) ->
  (forall y, Q y -> w' y <> 0 -> exists x, P x /\ f x = y) -> (forall x, P x -> w x = w' (f x)) ->
  sums_to P w s -> sums_to Q w' s.
Proof.
  intros HQ Hi Hs Hw (l & N & I & C & ->). exists (map f l). split; [apply NoDup_map_inj_on; auto|]. split; [|split].
  - intros y Hy. apply in_map_iff in Hy. destruct Hy as (x & <- & Hx). auto.
  - intros y Hy Hn. destruct (Hs y Hy Hn) as (x & Hx & <-). apply in_map, C; auto. rewrite Hw; auto.
  - rewrite Rsum_map. apply Rsum_ext. auto.
Qed.
Lemma sums_to_weaken {A} (P Q : A -> Prop) w s : (forall x, P x -> Q x) -> (forall x, Q x -> w x <> 0 -> P x) ->
  sums_to P w s -> sums_to Q w s.
Proof. intros H1 H2 (l & N & I & C & ->). exists l. repeat split; auto. Qed.
Lemma sums_to_restrict {A} (P : A -> Prop) (q : A -> bool) w s : sums_to P w s ->
  exists e, sums_to (fun x => P x /\ q x = true) w e.
Proof.
  intros (l & N & I & C & ->). exists (Rsum w (filter q l)), (filter q l). split; [apply NoDup_filter; auto|].
  split; [|split; auto].
  - intros x Hx. apply filter_In in Hx. destruct Hx; auto.
  - intros x [Hx Hq] Hn. apply filter_In. auto.
Qed.
Lemma sums_to_join {A} (P : A -> Prop) (q : A -> bool) w a b : sums_to (fun x => P x /\ q x = true) w a ->
  sums_to (fun x => P x /\ q x = false) w b -> sums_to P w (a + b).
Proof.
  intros (l & N & I & C & ->) (l' & N' & I' & C' & ->). exists (l ++ l'). split; [|split; [|split]].
  - apply NGProofs.NoDup_app_intro; auto. intros x H H'. apply I in H. apply I' in H'. destruct H, H'. congruence.
  - intros x Hx. apply in_app_iff in Hx. destruct Hx as [H|H]; [apply I in H|apply I' in H]; tauto.
  - intros x Hx Hn. apply in_app_iff. destruct (q x) eqn:E; [left|right]; auto.
  - rewrite Rsum_app; auto.
Qed.
Lemma sums_to_split {A} (P : A -> Prop) (q : A -> bool) w s a : sums_to P w s ->
  sums_to (fun x => P x /\ q x = true) w a -> sums_to (fun x => P x /\ q x = false) w (s - a).
Proof.
  intros Hs Ha.
  assert (Hb : exists b, sums_to (fun x => P x /\ q x = false) w b).
  { destruct (sums_to_restrict P (fun x => negb (q x)) w s Hs) as (b & Hb). exists b. eapply sums_to_ext; [| |exact Hb]; auto.
    intros x. simpl. destruct (q x); simpl; intuition congruence. }
  destruct Hb as (b & Hb). pose proof (sums_to_join _ _ _ _ _ Ha Hb) as Hj.
  pose proof (sums_to_unique _ _ _ _ Hs Hj) as ->. replace (a + b - a) with b by lra. auto.
Qed.
Lemma sums_to_list {A} (P : A -> Prop) w l : NoDup l -> (forall x, In x l -> P x) -> (forall x, P x -> w x <> 0 -> In x l) ->
  sums_to P w (Rsum w l).
Proof. intros. exists l. auto. Qed.

(** *** counts *)
Lemma counts_of_sums {A} (P : A -> Prop) (q : A -> bool) n :
  sums_to P (fun x => INR (b2n (q x))) (INR n) -> counts (fun x => P x /\ q x = true) n.
Proof.
  intros (l & N & I & C & E). exists (filter q l). split; [apply NoDup_filter; auto|]. split.
  - intros x. rewrite filter_In. split; intros [H1 H2]; split; auto. apply C; auto. rewrite H2. simpl. lra.
  - apply INR_eq. rewrite E. clear. induction l as [|x l IH]; simpl; auto. destruct (q x); simpl length; cbn [b2n].
    + rewrite S_INR, IH. simpl. lra.
    + rewrite IH. simpl. lra.
Qed.
Lemma counts_unique {A} (P : A -> Prop) n m : counts P n -> counts P m -> n = m.
Proof.
  intros (l & N & I & <-) (l' & N' & I' & <-). apply Permutation_length, NoDup_Permutation; auto.
  intros x. rewrite I, I'. tauto.
Qed.
Lemma counts_zero {A} (P : A -> Prop) n : counts P n -> (n = 0%nat <-> forall x, ~ P x).
Proof.
  intros (l & N & I & <-). split.
  - intros E x Hx. apply I in Hx. destruct l; [auto|discriminate].
  - intros H. destruct l as [|x l]; auto. exfalso. apply (H x), I. left; auto.
Qed.

(** *** Sums with early exit *)
Fixpoint esum {A} (ee : bool) (v : A -> nat) (l : list A) : nat :=
  match l with
  | [] => 0
  | x :: l' => if ee && Nat.ltb 0 (v x) then v x else v x + esum ee v l'
  end.
Lemma sum_exit_total {A} ee (f : A -> option nat) v l : (forall x, In x l -> f x = Some (v x)) ->
  sum_exit ee f l = Some (esum ee v l).
Proof.
  induction l as [|x l IH]; simpl; intros H; auto. rewrite H by auto. simpl. rewrite IH by auto.
  destruct (ee && Nat.ltb 0 (v x)); auto.
Qed.
Lemma esum_false {A} (v : A -> nat) l : INR (esum false v l) = Rsum (fun x => INR (v x)) l.
Proof. induction l as [|x l IH]; simpl; auto. rewrite plus_INR, IH. auto. Qed.
Lemma esum_zero {A} ee (v : A -> nat) l : esum ee v l = 0%nat <-> forall x, In x l -> v x = 0%nat.
Proof.
  induction l as [|x l IH]; simpl; [intuition|]. destruct (ee && Nat.ltb 0 (v x)) eqn:E.
  - apply andb_true_iff in E. destruct E as [_ E]. apply Nat.ltb_lt in E. split; [lia|]. intros H. specialize (H x). lia || auto.
  - split.
    + intros H y [->|Hy]; [lia|]. apply IH; auto. lia.
    + intros H. rewrite (H x), (proj2 IH); auto.
Qed.
Lemma esum_ee_zero {A} ee ee' (v : A -> nat) l : esum ee v l = 0%nat <-> esum ee' v l = 0%nat.
Proof. rewrite !esum_zero. tauto. Qed.
Definition ethen (ee : bool) (n m : nat) : nat := if ee && Nat.ltb 0 n then n else n + m.
Lemma then_exit_total ee n m : then_exit ee (Some n) (Some m) = Some (ethen ee n m).
Proof. unfold then_exit, ethen. simpl. destruct (ee && Nat.ltb 0 n); auto. Qed.
Lemma esum_app {A} ee (v : A -> nat) l l' : esum ee v (l ++ l') = ethen ee (esum ee v l) (esum ee v l').
Proof.
  unfold ethen. induction l as [|x l IH]; simpl; [rewrite andb_false_r; auto|].
  destruct ee; simpl in *; [|rewrite IH; lia].
  destruct (v x) as [|n] eqn:Ex; simpl; [exact IH|]. auto.
Qed.
Lemma esum_flat {A B} ee (v : B -> nat) (g : A -> list B) l :
  esum ee (fun x => esum ee v (g x)) l = esum ee v (flat_map g l).
Proof. induction l as [|x l IH]; simpl; auto. rewrite esum_app, <- IH. reflexivity. Qed.
Lemma esum_map {A B} ee (f : A -> B) (v : B -> nat) l : esum ee v (map f l) = esum ee (fun x => v (f x)) l.
Proof. induction l as [|x l IH]; simpl; auto. rewrite IH; auto. Qed.
Lemma esum_ext {A} ee (v v' : A -> nat) l : (forall x, In x l -> v x = v' x) -> esum ee v l = esum ee v' l.
Proof. induction l as [|x l IH]; simpl; intros H; auto. rewrite H by auto. rewrite IH by auto. reflexivity. Qed.
Lemma sum_energy_total {A} (f : A -> option R) v l : (forall x, In x l -> f x = Some (v x)) ->
  sum_energy f l = Some (Rsum v l).
Proof. induction l as [|x l IH]; simpl; intros H; auto. rewrite H by auto. simpl. rewrite IH by auto. auto. Qed.
