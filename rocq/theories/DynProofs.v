From Coq Require Import Reals ZArith List Bool Lia.
From Verif Require Import DynModel DynSpec.
Import ListNotations.
Open Scope Z_scope.

Lemma sorted_iff l : is_sorted l = true <-> forall a x b y c, l = a ++ x :: b ++ y :: c -> fst x <= fst y.
Proof.
  induction l as [|x l IH]; [split; [intros _ [|] ? ? ? ? E; discriminate|reflexivity]|]. cbn [is_sorted]. destruct l as [|y l].
  - split; [|reflexivity]. intros _ [|z [|]] ? [|] ? ? E; discriminate.
  - rewrite andb_true_iff, IH. split.
    + intros [H1 H2] a u b v c E. destruct a as [|z a]; cbn [app] in E; [|injection E as _ E; apply (H2 a u b v c E)]. injection E as <- E. apply negb_true_iff, Z.ltb_ge in H1. destruct b as [|w b]; cbn [app] in E; [injection E as <- _; exact H1|]. injection E as <- E. pose proof (H2 [] y b v c ltac:(cbn [app]; rewrite E; reflexivity)). lia.
    + intros H. split; [apply negb_true_iff, Z.ltb_ge, (H [] x [] y l eq_refl)|]. intros a u b v c E. apply (H (x :: a) u b v c). cbn [app]. rewrite E. reflexivity.
Qed.
Lemma unsorted_iff l : is_sorted l = false <-> exists a x b y c, l = a ++ x :: b ++ y :: c /\ fst y < fst x.
Proof.
  split.
  - induction l as [|x l IH]; [discriminate|]. cbn [is_sorted]. destruct l as [|y l]; [discriminate|]. rewrite andb_false_iff. intros [H|H].
    + apply negb_false_iff, Z.ltb_lt in H. exists [], x, [], y, l. auto.
    + destruct (IH H) as (a & u & b & v & c & E & L). exists (x :: a), u, b, v, c. split; [cbn [app]; rewrite E; reflexivity|exact L].
  - intros (a & x & b & y & c & E & L). destruct (is_sorted l) eqn:S; [|reflexivity]. pose proof (proj1 (sorted_iff l) S a x b y c E). lia.
Qed.
Lemma upper_split c l : forall a b, upper_bound c l = (a, b) -> l = a ++ b /\ Forall (fun y => fst y <= c) a /\ match b with [] => True | n :: _ => c < fst n end.
Proof.
  induction l as [|x l IH]; intros a b E; cbn [upper_bound] in E.
  - injection E as <- <-. repeat split; constructor.
  - destruct (c <? fst x) eqn:L.
    + injection E as <- <-. apply Z.ltb_lt in L. split; [reflexivity|]. split; [constructor|exact L].
    + apply Z.ltb_ge in L. destruct (upper_bound c l) as [a' b'] eqn:U. injection E as <- <-. cbn [fst snd]. destruct (IH _ _ eq_refl) as (-> & F & N). split; [reflexivity|]. split; [constructor; auto|exact N].
Qed.
Lemma as_long_small n : 0 <= n < 2 ^ 63 -> as_long n = n. Proof. intros H. unfold as_long. rewrite Z.mod_small; lia. Qed.

(** Shifted parameters. *)
Theorem shifted_value s p c t : 0 <= c <= size_max -> 0 <= t <= size_max -> - 2 ^ 63 < s < 2 ^ 63 ->
  shifted s p c t = (if (0 <=? c - s) && (c - s <=? size_max) && (0 <=? t - s) then p (c - s) (Z.min (t - s) size_max) else None).
Proof.
  intros Hc Ht Hs. unfold shifted. unfold size_max in *. destruct (0 <? s) eqn:E; [apply Z.ltb_lt in E|apply Z.ltb_ge in E].
  - destruct (s <=? c) eqn:A; [apply Z.leb_le in A|apply Z.leb_gt in A]; cbn [negb]; [|rewrite (proj2 (Z.leb_gt 0 (c - s))) by lia; reflexivity].
    destruct (s <=? t) eqn:B; [apply Z.leb_le in B|apply Z.leb_gt in B]; cbn [negb].
    + rewrite (proj2 (Z.leb_le 0 (c - s))), (proj2 (Z.leb_le (c - s) _)), (proj2 (Z.leb_le 0 (t - s))) by lia. cbn [andb]. rewrite Z.min_l by lia. reflexivity.
    + rewrite (proj2 (Z.leb_gt 0 (t - s))) by lia. rewrite andb_false_r. reflexivity.
  - cbn zeta. destruct (c <=? 2 ^ 64 - 1 - - s) eqn:A; [apply Z.leb_le in A|apply Z.leb_gt in A]; cbn [negb].
    + rewrite (proj2 (Z.leb_le 0 (c - s))), (proj2 (Z.leb_le (c - s) _)), (proj2 (Z.leb_le 0 (t - s))) by lia. cbn [andb]. replace (c + - s) with (c - s) by lia. f_equal. destruct (2 ^ 64 - 1 - - s <? t) eqn:B; [apply Z.ltb_lt in B; rewrite Z.min_r by lia; reflexivity|apply Z.ltb_ge in B; rewrite Z.min_l by lia; lia].
    + rewrite (proj2 (Z.leb_gt (c - s) _)) by lia. rewrite andb_false_r. reflexivity.
Qed.

(** Construction. *)
Theorem piecewise_refused l : piecewise l = None <-> misordered l.
Proof.
  unfold piecewise, misordered. destruct l as [|x l]; [split; auto|]. destruct (fst x =? 0) eqn:E; cbn [negb].
  - apply Z.eqb_eq in E. destruct (is_sorted (x :: l)) eqn:S; cbn [negb].
    + split; [discriminate|]. intros [H|[(y & l' & H & N)|H]]; [discriminate|injection H as <- <-; contradiction|]. apply unsorted_iff in H. congruence.
    + split; [|reflexivity]. intros _. right. right. apply unsorted_iff. exact S.
  - apply Z.eqb_neq in E. split; [|reflexivity]. intros _. right. left. exists x, l. auto.
Qed.
Definition shift_all (l : list (Z * parameter)) := map (fun u => (fst u, shifted (as_long (fst u)) (snd u))) l.
Lemma piecewise_built l : segments l -> piecewise l = Some (shift_all l).
Proof.
  intros ((p & l' & ->) & S & _). unfold piecewise. cbn [fst Z.eqb negb]. rewrite (proj2 (sorted_iff _) S). reflexivity.
Qed.
Lemma starts_all (l : list (Z * parameter)) : map fst (shift_all l) = map fst l. Proof. unfold shift_all. rewrite map_map. reflexivity. Qed.
Lemma upper_map c l : upper_bound c (shift_all l) = (shift_all (fst (upper_bound c l)), shift_all (snd (upper_bound c l))).
Proof.
  induction l as [|x l IH]; [reflexivity|]. unfold shift_all in *. cbn [map upper_bound fst snd]. destruct (c <? fst x); [reflexivity|]. rewrite IH. reflexivity.
Qed.
Lemma last_map l : fst (last (shift_all l) (0, constant 0)) = fst (last l (0, constant 0)).
Proof. induction l as [|x [|y l] IH]; [reflexivity|reflexivity|]. unfold shift_all in *. cbn [map last] in *. exact IH. Qed.
Lemma last_big (l : list (Z * parameter)) : (forall a x b y c, l = a ++ x :: b ++ y :: c -> fst x <= fst y) -> forall y d, In y l -> fst y <= fst (last l d).
Proof.
  induction l as [|x [|z l] IH]; intros S y d I; [destruct I|destruct I as [->|[]]; cbn; lia|]. assert (S' : forall a u b v c, z :: l = a ++ u :: b ++ v :: c -> fst u <= fst v) by (intros a u b v c E; apply (S (x :: a) u b v c); cbn [app]; rewrite E; reflexivity).
  change (last (x :: z :: l) d) with (last (z :: l) d). destruct I as [->|I]; [|apply IH; auto]. transitivity (fst z); [apply (S [] y [] z l eq_refl)|]. apply IH; [exact S'|left; reflexivity].
Qed.
Theorem piecewise_at l us c total : segments l -> piecewise l = Some us -> 0 <= c <= total -> total <= size_max -> (forall x, In x l -> fst x <= total) ->
  exists x e, current_segment l c total x e /\ fst x <= c /\ c - fst x <= e - fst x /\ piecewise_value us c total = snd x (c - fst x) (e - fst x).
Proof.
  intros Sg E Hc Ht Hl. rewrite (piecewise_built l Sg) in E. injection E as <-. destruct Sg as ((p & l' & El) & S & B). unfold piecewise_value. rewrite (proj2 (Z.leb_le c total)), last_map by lia. cbn [negb].
  assert (Hlast : fst (last l (0, constant 0)) <= total).
  { apply Hl. rewrite El. destruct (@exists_last _ ((0, p) :: l') ltac:(discriminate)) as (a & y & Ey). rewrite Ey, last_last. apply in_or_app. right. left. reflexivity. }
  rewrite (proj2 (Z.leb_le _ _) Hlast). cbn [negb]. rewrite upper_map. cbn [fst snd]. destruct (upper_bound c l) as [a b] eqn:U. cbn [fst snd]. destruct (upper_split c l a b U) as (Eab & Fa & Nb).
  assert (Na : a <> []).
  { intros ->. cbn [app] in Eab. subst b. rewrite El in Nb. cbn in Nb. lia. }
  destruct (@exists_last _ a Na) as (a0 & x & Ea). subst a. replace (shift_all (a0 ++ [x])) with (shift_all a0 ++ [(fst x, shifted (as_long (fst x)) (snd x))]) by (unfold shift_all; rewrite map_app; reflexivity). rewrite rev_app_distr. cbn [rev app].
  apply Forall_app in Fa. destruct Fa as [Fa Fx]. apply Forall_inv in Fx. rewrite <- app_assoc in Eab. cbn [app] in Eab.
  assert (Hx : 0 <= fst x < 2 ^ 63) by (rewrite Forall_forall in B; apply B; rewrite Eab; apply in_or_app; right; left; reflexivity).
  exists x, (match b with [] => total | n :: _ => fst n end). split; [|split; [exact Fx|]].
  - exists a0, b. split; [exact Eab|]. split; [exact Fx|]. split.
    + intros y Iy. apply in_split in Iy. destruct Iy as (u & v & ->). apply (S u y v x b). rewrite Eab, <- app_assoc. reflexivity.
    + split; [|reflexivity]. intros y Iy. destruct b as [|n b]; [destruct Iy|]. destruct Iy as [<-|Iy]; [exact Nb|]. apply in_split in Iy. destruct Iy as (u & v & ->). pose proof (S (a0 ++ [x]) n u y v ltac:(rewrite Eab, <- app_assoc; reflexivity)). lia.
  - assert (He : fst x <= match b with [] => total | n :: _ => fst n end) by (destruct b as [|n b]; lia). assert (Hce : c <= match b with [] => total | n :: _ => fst n end) by (destruct b as [|n b]; lia). split; [lia|]. cbn [snd fst]. replace (match shift_all b with [] => total | n :: _ => fst n end) with (match b with [] => total | n :: _ => fst n end) by (destruct b; reflexivity).
    assert (Hm : match b with [] => total | n :: _ => fst n end <= total) by (destruct b as [|n b]; [lia|]; apply Hl; rewrite Eab; apply in_or_app; right; right; left; reflexivity).
    rewrite as_long_small by exact Hx. rewrite shifted_value by lia. set (e := match b with [] => total | n :: _ => fst n end) in *. rewrite (proj2 (Z.leb_le 0 (c - fst x))), (proj2 (Z.leb_le (c - fst x) size_max)), (proj2 (Z.leb_le 0 (e - fst x))) by lia. cbn [andb]. rewrite Z.min_l by lia. reflexivity.
Qed.
Theorem piecewise_outside l us c total : segments l -> piecewise l = Some us -> 0 <= c -> (total < c \/ exists x, In x l /\ total < fst x) -> piecewise_value us c total = None.
Proof.
  intros Sg E Hc H. rewrite (piecewise_built l Sg) in E. injection E as <-. destruct Sg as (_ & S & _). unfold piecewise_value. destruct H as [H|(x & I & H)]; [rewrite (proj2 (Z.leb_gt c total)) by lia; reflexivity|]. destruct (c <=? total); [|reflexivity]. cbn [negb]. rewrite last_map. pose proof (last_big l S x (0, constant 0) I). rewrite (proj2 (Z.leb_gt _ total)) by lia. reflexivity.
Qed.
(** Starts beyond long: 2^64 - 1 is taken for -1. *)
Lemma wrapped : piecewise_value (match piecewise [(0, constant 0); (size_max, linear 1 0)] with Some us => us | None => [] end) size_max size_max = None.
Proof. vm_compute. reflexivity. Qed.
(** An example. *)
Definition three : list (Z * parameter) := [(0, constant 5); (1000, linear 2 1); (4000, exponential 1 2)].
Lemma three_segments : segments three.
Proof.
  split; [exists (constant 5), [(1000, linear 2 1); (4000, exponential 1 2)]; reflexivity|]. split; [apply sorted_iff; reflexivity|]. repeat (apply Forall_cons; [cbn; lia|]). constructor.
Qed.
Lemma three_value : exists us, piecewise three = Some us /\ piecewise_value us 1500 5000 = Some (1 + 500 * 2)%R /\ piecewise_value us 1000 5000 = Some (1 + 0 * 2)%R /\ piecewise_value us 999 5000 = Some 5%R.
Proof. eexists. split; [reflexivity|]. split; [|split]; reflexivity. Qed.
Lemma wrapped_built : piecewise [(0, constant 0); (size_max, linear 1 0)] <> None. Proof. discriminate. Qed.
Lemma plain_values a b c t : constant a c t = Some a /\ linear a b c t = Some (b + a * IZR c)%R /\ exponential a b c t = Some (a * exp (b * IZR c))%R.
Proof. unfold constant, linear, exponential. repeat split. f_equal. ring. Qed.
Lemma segment_unique l c total x e x' e' : current_segment l c total x e -> current_segment l c total x' e' -> x = x' /\ e = e'.
Proof.
  intros (a & b & E & L & _ & B & ->) (a' & b' & E' & L' & _ & B' & ->). subst l. revert a' E'. induction a as [|y a IH]; intros [|y' a'] E'; cbn [app] in E'.
  - injection E' as -> ->. auto.
  - injection E' as -> ->. exfalso. pose proof (B x' ltac:(apply in_or_app; right; left; reflexivity)). lia.
  - injection E' as -> <-. exfalso. pose proof (B' x ltac:(apply in_or_app; right; left; reflexivity)). lia.
  - injection E' as -> E'. exact (IH a' E').
Qed.
