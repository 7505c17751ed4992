(** What a test of two bodies should answer. *)
From Coq Require Import Reals List Bool.
From Verif Require Import GeomModel GeoModel XcModel XcSpec CollideModel.
Open Scope R_scope.

(** The bodies are [t] or less deep in each other: moving the second one by [t] along a direction [u] leaves no common inner point. *)
Definition apart (t : R) (b1 b2 : body) : Prop := exists u, vnorm u = 1 /\ forall x y, b1 x -> b2 y -> vdot y u <= vdot x u + t.
(** Two points of them are [t] or less away from each other. *)
Definition near (t : R) (b1 b2 : body) : Prop := exists x y, b1 x /\ b2 y /\ vnorm (vsub y x) <= t.

(** The portals visited by the second loop, until the origin lies inside one *)
Definition first_portal (support : vec -> option vec) (v0 : vec) (p : portal) : Prop :=
  exists fuel v1 v2 n, start support v0 = Begun v1 v2 n /\ find_portal support v0 fuel v1 v2 n = Found p.
Definition outside_portal (p : portal) : Prop := let '(v1, v2, v3) := p in vdot (vcross (vsub v2 v1) (vsub v3 v1)) v1 < 0.
Inductive visited (support : vec -> option vec) (v0 : vec) : portal -> Prop :=
| vi_first : forall p, first_portal support v0 p -> visited support v0 p
| vi_next : forall p v4, visited support v0 p -> outside_portal p -> support (portal_normal p) = Some v4 -> visited support v0 (next_portal v0 p v4).
(** A new support point lies in a common plane with the origin, the centre and one of two corners of the portal. *)
Definition tied (v0 : vec) (p : portal) (v4 : vec) : Prop :=
  let '(v1, v2, v3) := p in vdot (vcross v1 v4) v0 = 0 \/ vdot (vcross v3 v4) v0 = 0.
Definition no_ties (support : vec -> option vec) (v0 : vec) : Prop :=
  forall p v4, visited support v0 p -> outside_portal p -> support (portal_normal p) = Some v4 -> ~ tied v0 p v4.

(** Geometries which describe the bodies exactly: convex bodies around their origins, with support points in all directions, an outer and an inner ball *)
Definition good_shape (geometries : nat -> xc) (bodies : nat -> body) : Prop :=
  forall i, shaped any_direction (geometries i) (bodies i) /\ covered (geometries i) (bodies i) /\ filled (geometries i) (bodies i) /\ bodies i vzero /\ 0 <= xc_insphere (geometries i).
