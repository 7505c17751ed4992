From Coq Require Import Reals List Bool Lra.
From Verif Require Import GeomModel GeomProofs BoxModel PbcModel PackModel PackSpec DomSpec InterModel InterSpec InterProofs InterEnergyProofs.
Import ListNotations.
Open Scope R_scope.

Definition dimer : list vec := [V3 1 0 0; V3 (-1) 0 0].
(** A hard sphere of radius 1 in each centre. *)
Definition spheres : winter := WInter (Inter true false true 2 (getTotalRangeRadius dimer 2) dimer (fun p1 _ _ p2 _ _ bc => Rltb (bc_distance2 bc p1 p2) 4) (fun _ _ _ _ _ _ _ => 0) (fun _ _ _ _ _ => false)) true.
Definition spheres_law : law bool := fun _ _ _ _ _ s => Rltb s 4.
Definition no_energy : law R := fun _ _ _ _ _ _ => 0.
Lemma spheres_lawful : lawful (wi spheres) spheres_law no_energy.
Proof.
  unfold lawful, spheres, spheres_law, no_energy. cbn [wi in_overlap in_energy in_rangeRadius in_hard in_wall]. repeat (split; [intros p1 r1 c1 p2 r2 c2; reflexivity|]). repeat (split; [intros p1 r1 c1 p2 r2 c2 bc; reflexivity|]). split; [lra|]. split; [|split; [intros; congruence|discriminate]].
  intros _ _ _ _ d H. apply rltb_iff in H. unfold vnorm. replace 2 with (sqrt 4) by (replace 4 with (2 * 2) by lra; apply sqrt_square; lra). apply sqrt_le_1_alt. lra.
Qed.
Definition soft : winter := central (sic_energy 1 3) 3 dimer.
Lemma soft_built : sic 1 3 dimer = Some soft. Proof. apply built. split; [intros H; lra|]. split; [lra|reflexivity]. Qed.
Lemma both : exists w, compound spheres soft = Some w /\ in_rangeRadius (wi w) = 3 /\ in_hard (wi w) = true /\ in_soft (wi w) = true /\ in_convex (wi w) = true /\ wi_wall w = true.
Proof.
  destruct (compound spheres soft) as [w|] eqn:E; [|exfalso; apply compound_refused in E; apply E; reflexivity]. exists w. split; [reflexivity|]. destruct (compound_parts _ _ _ E) as (_ & _ & _ & H1 & H2 & H3 & H4 & H5 & _). rewrite H1, H2, H3, H5. cbn. split; [apply Rmax_right; lra|]. split; [reflexivity|]. split; [reflexivity|]. split; [|reflexivity]. apply H4. left. auto.
Qed.
Lemma others : compound spheres (central (sic_energy 1 3) 3 []) = None. Proof. apply compound_refused. cbn. discriminate. Qed.
