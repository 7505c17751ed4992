From Coq Require Import Reals List Arith Lia Lra.
From Verif Require Import GeomModel GeomProofs GeoModel RotSpec XcModel XcSpec MeshModel MeshSpec MeshProofs OptModel.
Import ListNotations.
Local Open Scope nat_scope.

Definition tri3 := (vec * vec * vec)%type.
Definition resolve (verts : list vec) (t : triangle) (f : tri3) : Prop :=
  let '(i, j, k) := t in let '(a, b, c) := f in nth_error verts i = Some a /\ nth_error verts j = Some b /\ nth_error verts k = Some c.
(** A face of level [n] and the four (three points) it is divided into *)
Inductive quartered : tri3 -> list tri3 -> list vec -> Prop :=
| Quartered a b c ab bc ca : middle a b ab -> middle b c bc -> middle c a ca ->
    quartered (a, b, c) [(a, ab, ca); (ab, b, bc); (ca, bc, c); (ab, bc, ca)] [ab; bc; ca].
Lemma nth_ext_app {A} (l e : list A) i a : nth_error l i = Some a -> nth_error (l ++ e) i = Some a.
Proof. intros H. rewrite nth_error_app1; [exact H|]. apply nth_error_Some. congruence. Qed.
Lemma resolve_app verts e t f : resolve verts t f -> resolve (verts ++ e) t f.
Proof. destruct t as [[i j] k], f as [[a b] c]. cbn. intros (X & Y & Z). repeat split; apply nth_ext_app; assumption. Qed.
Lemma nth_end {A} (l : list A) x y z : nth_error (l ++ [x; y; z]) (length l) = Some x /\ nth_error (l ++ [x; y; z]) (length l + 1) = Some y /\
  nth_error (l ++ [x; y; z]) (length l + 2) = Some z.
Proof.
  repeat split; (rewrite nth_error_app2; [|lia]).
  - replace (length l - length l) with 0 by lia. reflexivity.
  - replace (length l + 1 - length l) with 1 by lia. reflexivity.
  - replace (length l + 2 - length l) with 2 by lia. reflexivity.
Qed.
Definition facet3 (n : nat) (f : tri3) : Prop := let '(a, b, c) := f in facet n a b c.
Lemma divide_one_spec n t f verts : resolve verts t f -> facet3 n f ->
  exists fs ms tris, quartered f fs ms /\ divide_one t verts = Some (verts ++ ms, tris) /\ Forall2 (resolve (verts ++ ms)) tris fs /\
    Forall (facet3 (S n)) fs /\ length ms = 3 /\ length fs = 4.
Proof.
  destruct t as [[i j] k], f as [[a b] c]. cbn [resolve facet3]. intros (X & Y & Z) F.
  destruct (facet_middles _ _ _ _ F) as (ab & bc & ca & M1 & M2 & M3 & N1 & N2 & N3).
  exists [(a, ab, ca); (ab, b, bc); (ca, bc, c); (ab, bc, ca)], [ab; bc; ca]. eexists.
  split; [constructor; assumption|]. split.
  { unfold divide_one. rewrite X, Y, Z. cbn [obind]. rewrite N1, N2, N3. cbn [obind]. reflexivity. }
  destruct (nth_end verts ab bc ca) as (E1 & E2 & E3).
  split.
  { repeat constructor; cbn [resolve]; auto using nth_ext_app. }
  split; [|split; reflexivity].
  assert (C2 : facet (S n) ab b bc) by (apply F_turn, F_turn; apply (F_corner n b c a bc ab); [apply F_turn; exact F|exact M2|exact M1]).
  assert (C3 : facet (S n) ca bc c) by (apply F_turn; apply (F_corner n c a b ca bc); [apply F_turn, F_turn; exact F|exact M3|exact M2]).
  assert (C1 : facet (S n) a ab ca) by (eapply F_corner; eassumption).
  assert (C4 : facet (S n) ab bc ca) by (eapply F_inner; eassumption).
  repeat (constructor; [assumption|]). constructor.
Qed.
Lemma Forall2_mono {A B} (P Q : A -> B -> Prop) l m : (forall a b, P a b -> Q a b) -> Forall2 P l m -> Forall2 Q l m.
Proof. intros H. induction 1; constructor; auto. Qed.
(** The four of all faces *)
Inductive divided : list tri3 -> list tri3 -> list vec -> Prop :=
| D_nil : divided [] [] []
| D_cons f l fs ms fs' ms' : quartered f fs ms -> divided l fs' ms' -> divided (f :: l) (fs ++ fs') (ms ++ ms').
Lemma divide_spec n tris : forall verts fs, Forall2 (resolve verts) tris fs -> Forall (facet3 n) fs ->
  exists fs' ms tris', divided fs fs' ms /\ divide tris verts = Some (verts ++ ms, tris') /\ Forall2 (resolve (verts ++ ms)) tris' fs' /\
    Forall (facet3 (S n)) fs' /\ length ms = 3 * length fs /\ length fs' = 4 * length fs.
Proof.
  induction tris as [|t tris IH]; intros verts fs R G; inversion R as [|? f ? fs0 R1 R2]; subst.
  - exists [], [], []. rewrite app_nil_r. repeat split; try constructor.
  - inversion G as [|? ? G1 G2]; subst.
    destruct (divide_one_spec n t f verts R1 G1) as (four & ms & ts & Q & E & R3 & G3 & L1 & L2).
    destruct (IH (verts ++ ms) fs0) as (fs' & ms' & ts' & D & E' & R4 & G4 & L3 & L4).
    { revert R2. apply Forall2_mono. intros. apply resolve_app. assumption. } { exact G2. }
    exists (four ++ fs'), (ms ++ ms'), (ts ++ ts'). split; [constructor; assumption|]. split.
    { cbn [divide]. rewrite E. cbn [obind fst snd]. rewrite E'. cbn [obind fst snd]. rewrite app_assoc. reflexivity. }
    rewrite app_assoc. split.
    { apply Forall2_app; [|exact R4]. revert R3. apply Forall2_mono. intros. apply resolve_app. assumption. }
    split; [apply Forall_app; split; assumption|]. rewrite !app_length. cbn [length]. lia.
Qed.
Lemma loop_snoc n : forall verts tris, sphere_loop (S n) verts tris = (r <- sphere_loop n verts tris ;; divide (snd r) (fst r)).
Proof.
  induction n as [|n IH]; intros verts tris.
  - cbn [sphere_loop]. destruct (divide tris verts) as [[v t]|] eqn:E; cbn [obind fst snd]; rewrite E; reflexivity.
  - change (sphere_loop (S (S n)) verts tris) with (r <- divide tris verts ;; sphere_loop (S n) (fst r) (snd r)).
    change (sphere_loop (S n) verts tris) with (r <- divide tris verts ;; sphere_loop n (fst r) (snd r)).
    destruct (divide tris verts) as [r|]; cbn [obind]; [|reflexivity]. apply IH.
Qed.
Definition corner (v : vec) (f : tri3) : Prop := let '(a, b, c) := f in v = a \/ v = b \/ v = c.
Lemma quartered_corners f fs ms v : quartered f fs ms -> (exists g, In g fs /\ corner v g) <-> corner v f \/ In v ms.
Proof.
  intros Q. destruct Q as [a b c ab bc ca M1 M2 M3]. cbn [corner In]. split.
  - intros (g & G & C). repeat (destruct G as [<-|G]; [cbn [corner] in C; intuition auto|]). destruct G.
  - intros [[->|[->| ->]]|[<-|[<-|[<-|[]]]]].
    + exists (a, ab, ca). cbn [corner]. auto.
    + exists (ab, b, bc). cbn [corner]. auto.
    + exists (ca, bc, c). cbn [corner]. auto.
    + exists (ab, bc, ca). cbn [corner]. auto 6.
    + exists (ab, bc, ca). cbn [corner]. auto 6.
    + exists (ab, bc, ca). cbn [corner]. auto 6.
Qed.
Lemma divided_corners fs fs' ms v : divided fs fs' ms -> (exists g, In g fs' /\ corner v g) <-> (exists g, In g fs /\ corner v g) \/ In v ms.
Proof.
  induction 1 as [|f l four ms fs' ms' Q D IH].
  - split; [intros (g & [] & _)|intros [(g & [] & _)|[]]].
  - pose proof (quartered_corners _ _ _ v Q) as QC. split.
    + intros (g & G & C). apply in_app_or in G as [G|G].
      * destruct (proj1 QC (ex_intro _ g (conj G C))) as [X|X]; [left; exists f; split; [left; reflexivity|exact X]|right; apply in_or_app; left; exact X].
      * destruct (proj1 IH (ex_intro _ g (conj G C))) as [(h & H & C')|X]; [left; exists h; split; [right; exact H|exact C']|right; apply in_or_app; right; exact X].
    + intros [(g & [<-|G] & C)|M].
      * destruct (proj2 QC (or_introl C)) as (h & H & C'). exists h. split; [apply in_or_app; left; exact H|exact C'].
      * destruct (proj2 IH (or_introl (ex_intro _ g (conj G C)))) as (h & H & C'). exists h. split; [apply in_or_app; right; exact H|exact C'].
      * apply in_app_or in M as [M|M].
        -- destruct (proj2 QC (or_intror M)) as (h & H & C'). exists h. split; [apply in_or_app; left; exact H|exact C'].
        -- destruct (proj2 IH (or_intror M)) as (h & H & C'). exists h. split; [apply in_or_app; right; exact H|exact C'].
Qed.
Definition same3 (f g : tri3) : Prop :=
  let '(a, b, c) := f in
  g = (a, b, c) \/ g = (b, c, a) \/ g = (c, a, b) \/ g = (b, a, c) \/ g = (a, c, b) \/ g = (c, b, a).
Definition listed (fs : list tri3) (a b c : vec) : Prop := exists f, In f fs /\ same3 f (a, b, c).
Lemma listed_turn fs a b c : listed fs a b c -> listed fs b c a.
Proof. intros ([[x y] z] & F & S). exists (x, y, z). split; [exact F|]. cbn [same3] in *. repeat destruct S as [S|S]; injection S as -> -> ->; auto 10. Qed.
Lemma listed_flip fs a b c : listed fs a b c -> listed fs b a c.
Proof. intros ([[x y] z] & F & S). exists (x, y, z). split; [exact F|]. cbn [same3] in *. repeat destruct S as [S|S]; injection S as -> -> ->; auto 10. Qed.
Lemma divided_in fs fs' ms f : divided fs fs' ms -> In f fs -> exists four m3, quartered f four m3 /\ incl four fs'.
Proof.
  induction 1 as [|g l four m fs' ms' Q D IH]; [intros []|].
  intros [<-|F]; [exists four, m; split; [exact Q|apply incl_appl, incl_refl]|].
  destruct (IH F) as (h & m3 & Q' & I). exists h, m3. split; [exact Q'|apply incl_appr, I].
Qed.
Ltac same_mids := repeat match goal with
  | H : middle ?a ?b ?m, H' : middle ?a ?b ?m' |- _ => pose proof (middle_unique _ _ _ _ H H'); clear H'; try subst m'; try subst m
  | H : middle ?a ?b ?m, H' : middle ?b ?a ?m' |- _ => apply middle_sym in H'
  end.
Lemma divided_corner fs fs' ms a b c ab ca : divided fs fs' ms -> listed fs a b c -> middle a b ab -> middle c a ca -> listed fs' a ab ca.
Proof.
  intros D ([[x y] z] & F & S) M1 M2. destruct (divided_in _ _ _ _ D F) as (four & m3 & Q & I).
  inversion Q as [? ? ? xy yz zx N1 N2 N3]; subst.
  cbn [same3] in S. repeat destruct S as [S|S]; injection S as -> -> ->; same_mids;
  solve [eexists; split; [apply I; cbn [In]; left; reflexivity|cbn [same3]; auto 10]
        |eexists; split; [apply I; cbn [In]; right; left; reflexivity|cbn [same3]; auto 10]
        |eexists; split; [apply I; cbn [In]; right; right; left; reflexivity|cbn [same3]; auto 10]].
Qed.
Lemma divided_inner fs fs' ms a b c ab bc ca : divided fs fs' ms -> listed fs a b c -> middle a b ab -> middle b c bc -> middle c a ca -> listed fs' ab bc ca.
Proof.
  intros D ([[x y] z] & F & S) M1 M2 M3. destruct (divided_in _ _ _ _ D F) as (four & m3 & Q & I).
  inversion Q as [? ? ? xy yz zx N1 N2 N3]; subst.
  cbn [same3] in S. repeat destruct S as [S|S]; injection S as -> -> ->; same_mids;
  (eexists; split; [apply I; cbn [In]; right; right; right; left; reflexivity|cbn [same3]; auto 10]).
Qed.
Lemma facet_listed n : forall fs fs' ms, (forall a b c, facet n a b c -> listed fs a b c) -> divided fs fs' ms ->
  forall a b c, facet (S n) a b c -> listed fs' a b c.
Proof.
  intros fs fs' ms H D a b c F. remember (S n) as m eqn:E. revert E.
  induction F as [x y z X Y Z|k a b c ab ca F IH M1 M2|k a b c ab bc ca F IH M1 M2 M3|k a b c F IH|k a b c F IH]; intros E.
  - discriminate.
  - injection E as ->. eapply divided_corner; eauto.
  - injection E as ->. eapply divided_inner; eauto.
  - apply listed_turn, IH, E.
  - apply listed_flip, IH, E.
Qed.

Definition octahedron_faces : list tri3 :=
  let x := V3 1 0 0 in let x' := V3 (-1) 0 0 in let y := V3 0 1 0 in let y' := V3 0 (-1) 0 in let z := V3 0 0 1 in let z' := V3 0 0 (-1) in
  [(x, y', z'); (y, x, z'); (x', y, z'); (y', x', z'); (y', x, z); (x, y, z); (y, x', z); (x', y', z)].
Lemma octahedron_facet x y z : sign x -> sign y -> sign z -> facet 0 (V3 x 0 0) (V3 0 y 0) (V3 0 0 z) /\ facet 0 (V3 0 y 0) (V3 x 0 0) (V3 0 0 z).
Proof. intros X Y Z. split; [|apply F_flip]; apply F_octahedron; assumption. Qed.
Lemma octahedron_listed a b c : facet 0 a b c -> listed octahedron_faces a b c.
Proof.
  intros F. remember 0 as m eqn:E. revert E. induction F as [x y z X Y Z| | |k a b c F IH|k a b c F IH]; intros E; try discriminate.
  - destruct X as [->| ->], Y as [->| ->], Z as [->| ->]; unfold listed, octahedron_faces; cbv zeta;
    match goal with |- exists f, _ /\ same3 f (?a, ?b, ?c) =>
      solve [exists (a, b, c); split; [cbn [In]; tauto|cbn [same3]; auto]|exists (b, a, c); split; [cbn [In]; tauto|cbn [same3]; auto 10]] end.
  - apply listed_turn, IH, E.
  - apply listed_flip, IH, E.
Qed.
Lemma sphere_spec n : exists verts tris fs, sphere_loop n octahedron_verts octahedron_tris = Some (verts, tris) /\
  Forall2 (resolve verts) tris fs /\ Forall (facet3 n) fs /\ (forall a b c, facet n a b c -> listed fs a b c) /\
  (forall v, In v verts <-> exists f, In f fs /\ corner v f) /\ length verts + 2 = 8 * 4 ^ n /\ length fs = 8 * 4 ^ n /\
  exists more, verts = octahedron_verts ++ more.
Proof.
  induction n as [|n (verts & tris & fs & E & R & G & C & V & L1 & L2 & more & P)].
  - exists octahedron_verts, octahedron_tris, octahedron_faces. split; [reflexivity|]. split.
    { repeat constructor. } split.
    { unfold octahedron_faces. cbv zeta. assert (P : sign 1) by (left; reflexivity). assert (N : sign (-1)) by (right; reflexivity).
      repeat (constructor; [cbn [facet3]; first [apply (octahedron_facet _ _ _ P P P)|apply (octahedron_facet _ _ _ P P N)|apply (octahedron_facet _ _ _ P N P)
        |apply (octahedron_facet _ _ _ P N N)|apply (octahedron_facet _ _ _ N P P)|apply (octahedron_facet _ _ _ N P N)|apply (octahedron_facet _ _ _ N N P)
        |apply (octahedron_facet _ _ _ N N N)]|]). constructor. }
    split; [apply octahedron_listed|]. split; [|split; [reflexivity|split; [reflexivity|exists []; reflexivity]]].
    intros v. unfold octahedron_verts, octahedron_faces. cbv zeta. split.
    + intros [<-|[<-|[<-|[<-|[<-|[<-|[]]]]]]].
      * eexists; split; [left; reflexivity|cbn [corner]; auto].
      * eexists; split; [right; right; left; reflexivity|cbn [corner]; auto].
      * eexists; split; [right; left; reflexivity|cbn [corner]; auto].
      * eexists; split; [left; reflexivity|cbn [corner]; auto].
      * eexists; split; [do 5 right; left; reflexivity|cbn [corner]; auto].
      * eexists; split; [left; reflexivity|cbn [corner]; auto].
    + intros (f & F & C). repeat (destruct F as [<-|F]; [cbn [corner] in C; destruct C as [->|[->| ->]]; cbn [In]; tauto|]). destruct F.
  - destruct (divide_spec n tris verts fs R G) as (fs' & ms & tris' & D & E' & R' & G' & L3 & L4).
    exists (verts ++ ms), tris', fs'. split.
    { rewrite loop_snoc, E. cbn [obind fst snd]. exact E'. }
    split; [exact R'|]. split; [exact G'|]. split; [exact (facet_listed n fs fs' ms C D)|]. split.
    { intros v. rewrite (divided_corners _ _ _ v D), <- V, in_app_iff. reflexivity. }
    rewrite app_length. cbn [Nat.pow]. split; [lia|]. split; [lia|]. exists (more ++ ms). rewrite P, app_assoc. reflexivity.
Qed.
Lemma sphere_points n : exists vs, generateSpherePoints n = Some vs /\ (forall v, In v vs <-> exists b c, facet n v b c) /\ length vs + 2 = 8 * 4 ^ n /\
  exists more, vs = octahedron_verts ++ more.
Proof.
  destruct (sphere_spec n) as (verts & tris & fs & E & R & G & C & V & L1 & L2 & P). exists verts. split.
  { unfold generateSpherePoints. rewrite E. reflexivity. }
  split; [|split; [exact L1|exact P]]. intros v. rewrite V. split.
  - intros ([[a b] c] & F & X). rewrite Forall_forall in G. apply G in F. cbn [facet3 corner] in *. destruct X as [->|[->| ->]].
    + exists b, c. exact F.
    + exists c, a. apply F_turn, F.
    + exists a, b. apply F_turn, F_turn, F.
  - intros (b & c & F). apply C in F as ([[x y] z] & F & S). exists (x, y, z). split; [exact F|]. cbn [same3 corner] in *.
    repeat destruct S as [S|S]; injection S as -> -> ->; auto.
Qed.
