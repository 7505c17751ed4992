(** An input file. *)
From Coq Require Import Reals ZArith List Bool Lia Lra String Sorted.
From Verif Require Import TextModel StringsModel StringsSpec ScalingModel PyonModel MatchModel SimModel SimSpec SimEnvProofs InputModel InputSpec InputCallProofs.
From Verif Require DynModel DynSpec DynProofs.
Import ListNotations.
Open Scope Z_scope.

(** An accepted input can be started. *)
Section Started.
Context {Arr Shp Obs Bulk : Type}.
Variables (of_float : list Z -> R) (arrangements : family Arr) (shapes : family Shp) (observables : family Obs) (bulks : family Bulk).
Lemma started n p cont : input of_float arrangements shapes observables bulks n p -> exists l, casino_environments (bp_env p) (map run_env (pr_runs p)) 0 cont = Some l.
Proof.
  intros (a & _ & A). destruct (pa_complete _ _ _ _ _ _ _ A) as (r & e & Er & W & C). apply found.
  - rewrite map_length. destruct (pr_runs p); [discriminate|cbn; lia].
  - intros e' W'. destruct (pr_runs p) as [|r' l]; [discriminate|]. cbn in Er. injection Er as ->. cbn [map firstn] in W'. destruct W as (A1 & A2 & A3 & A4), W' as (B1 & B2 & B3 & B4). unfold complete in *.
    rewrite (last_given_unique _ _ _ B1 A1), (last_given_unique _ _ _ B2 A2), (last_given_unique _ _ _ B3 A3), (last_given_unique _ _ _ B4 A4). exact C.
Qed.
End Started.
Lemma pieces_built of_float n l (f : dyn -> DynModel.parameter) : parameter of_float n (DPiecewise l) -> DynModel.piecewise (map (fun x => (fst x, f (snd x))) l) <> None.
Proof.
  intros [H|(ns & l' & -> & E & F & L & Z0 & S)]; [inversion H|]. injection E as <-. intros H. apply DynProofs.piecewise_refused in H. unfold DynSpec.misordered in H.
  destruct H as [H|[(x & l' & H & N)|(a & x & b & y & c & H & N)]].
  - destruct l; [cbn in L; lia|discriminate].
  - destruct l as [|p l]; [discriminate|]. cbn [map] in H, Z0. injection H as <- _. cbn in N, Z0. congruence.
  - assert (M : map fst l = map fst a ++ fst x :: map fst b ++ fst y :: map fst c). { transitivity (map fst (map (fun x => (fst x, f (snd x))) l)); [rewrite map_map; reflexivity|]. rewrite H, map_app. cbn [map]. rewrite map_app. reflexivity. }
    rewrite M in S. clear -S N. induction (map fst a) as [|z q IH]; cbn [app] in S; inversion S as [|? ? S1 S2]; subst; [|exact (IH S1)]. apply Forall_app in S2. destruct S2 as [_ S2]. inversion S2; subst. lia.
Qed.

Definition sample_text : text := tx "rampack(version=""1.2"", arrangement=lattice(2), shape=ball(), seed=-1, temperature=3, move_types=[translation(1), flip()],
  runs=[integration(""heat"", 100, None, 10, box_move_type=disabled), integration(""cool"", None, 50, 5, averaging_every=-1, box_move_type=delta_v(2), output_last_snapshot=[xyz(""a""), ramsnap(""b"")])])".
Definition str (s : string) : node := NString (tx s).
Definition cl (s : string) (pos : list node) (kw : list (string * node)) : node := NClass (tx s) pos (map (fun e => (tx (fst e), snd e)) kw).
Definition run_1 : node := cl "integration" [str "heat"; NInt 100; NNone; NInt 10] [("box_move_type", cl "disabled" [] [])]%string.
Definition run_2 : node := cl "integration" [str "cool"; NNone; NInt 50; NInt 5]
  [("averaging_every", NInt (-1)); ("box_move_type", cl "delta_v" [NInt 2] []); ("output_last_snapshot", NArray [cl "xyz" [str "a"] []; cl "ramsnap" [str "b"] []])]%string.
Definition sample : node := cl "rampack" []
  [("version", str "1.2"); ("arrangement", cl "lattice" [NInt 2] []); ("shape", cl "ball" [] []); ("seed", NInt (-1)); ("temperature", NInt 3);
   ("move_types", NArray [cl "translation" [NInt 1] []; cl "flip" [] []]); ("runs", NArray [run_1; run_2])]%string.
Lemma sample_parsed : parse (fun _ => false) sample_text = Ok sample.
Proof. vm_compute. reflexivity. Qed.
Definition lattices : family Z := [(tx "lattice", fun pos kw => match pos, kw with [NInt i], [] => Match i | _, _ => NoMatch end)].
Definition balls : family unit := [(tx "ball", fun _ _ => Match tt)].
Definition no_one : family unit := [].
Definition result_1 : @run unit unit unit := RunIntegration (IntegrationRun (tx "heat") (Env None None [] ScalerDisabled) (Some 100) None 10 0 100 10000 [] None [] None [] [] None None None).
Definition result_2 : @run unit unit unit :=
  RunIntegration (IntegrationRun (tx "cool") (Env None None [] (ScalerSet (DeltaV 2))) None (Some 50) 5 (2 ^ 64 - 1) 100 10000 [Writer (tx "a") Xyz; Writer (tx "b") Ramsnap] (Some (tx "b")) [] None [] [] None None None).
Definition result : @parameters Z unit unit unit :=
  Parameters (Version 1 2 0) 2 (Env (Some (DConst 3)) None [Translation 1 0; Flip 10] ScalerUnset) (2 ^ 64 - 1) tt (false, false, false) (Some 1) (1, 1, 1) true [result_1; result_2].

Ltac called := unfold run_1, run_2, sample; match goal with |- object (cl ?c ?pos ?kw) _ _ _ => exists pos, (map (fun e => (tx (fst e), snd e)) kw) end; split; [reflexivity|]; split; [constructor|intros; reflexivity];
  [cbn; lia
  |intros _ k I; vm_compute in I; repeat (destruct I as [<-|I]; [vm_compute; repeat (first [left; reflexivity|right])|]); contradiction
  |intros i k L E; cbn in L; repeat (destruct i as [|i]; [vm_compute in E; injection E as <-; vm_compute; intuition discriminate|]); lia
  |intros k I; vm_compute in I; repeat (destruct I as [I|I]; [try discriminate I; injection I as <-; vm_compute; discriminate|]); contradiction].
Ltac given := eexists; split; [vm_compute; reflexivity|].
Section Sample.
Variable of_float : list Z -> R.
Lemma integer i : num of_float (NInt i) (IZR i). Proof. left. eauto. Qed.
Lemma positive i : 0 < i -> positive_num of_float (NInt i) (IZR i). Proof. intros H. split; [apply integer|]. apply IZR_lt. exact H. Qed.
Lemma run_1_ok : runs of_float balls no_one no_one run_1 result_1.
Proof.
  eexists. split; [called|]. constructor; cbn [in_name in_env in_thermalization in_averaging in_snapshot_every in_averaging_every in_inline_every in_fix_every in_writers in_ramsnap in_recorders in_ramtrj in_observables in_bulk in_averages_out in_observables_out in_bulk_pattern].
  - given. split; [reflexivity|]. split; [discriminate|]. apply Forall_forall. intros c I. vm_compute in I. unfold word_char. lia.
  - constructor; reflexivity.
  - given. split; [reflexivity|lia].
  - given. reflexivity.
  - given. split; [reflexivity|lia].
  - reflexivity.
  - reflexivity.
  - reflexivity.
  - reflexivity.
  - reflexivity.
  - reflexivity.
  - reflexivity.
  - reflexivity.
  - reflexivity.
  - reflexivity.
  - constructor.
  - constructor.
  - left. discriminate.
  - congruence.
  - auto.
  - congruence.
Qed.
Lemma run_2_ok : runs of_float balls no_one no_one run_2 result_2.
Proof.
  eexists. split; [called|]. constructor; cbn [in_name in_env in_thermalization in_averaging in_snapshot_every in_averaging_every in_inline_every in_fix_every in_writers in_ramsnap in_recorders in_ramtrj in_observables in_bulk in_averages_out in_observables_out in_bulk_pattern].
  - given. split; [reflexivity|]. split; [discriminate|]. apply Forall_forall. intros c I. vm_compute in I. unfold word_char. lia.
  - constructor; try reflexivity. change (box_moves of_float (cl "delta_v" [NInt 2] []) (DeltaV 2)). eapply B_delta_v; [called|]. given. apply positive. lia.
  - given. reflexivity.
  - given. split; [reflexivity|lia].
  - given. split; [reflexivity|lia].
  - exists (-1). split; reflexivity.
  - reflexivity.
  - reflexivity.
  - change (list_of writes (NArray [cl "xyz" [str "a"] []; cl "ramsnap" [str "b"] []]) [Writer (tx "a") Xyz; Writer (tx "b") Ramsnap]). eexists. split; [reflexivity|]. repeat constructor.
    + eapply W_xyz; [called|]. given. split; [reflexivity|discriminate].
    + eapply W_ramsnap; [called|]. given. split; [reflexivity|discriminate].
  - reflexivity.
  - reflexivity.
  - reflexivity.
  - reflexivity.
  - reflexivity.
  - reflexivity.
  - exists [Writer (tx "a") Xyz], (Writer (tx "b") Ramsnap), []. split; [reflexivity|]. split; [repeat constructor; discriminate|]. split; reflexivity.
  - constructor.
  - right. discriminate.
  - intros _. lia.
  - discriminate.
  - congruence.
Qed.
Lemma sample_ok : input of_float lattices balls no_one no_one sample result.
Proof.
  eexists. split; [called|]. constructor; cbn [bp_version bp_arrangement bp_env bp_seed bp_shape bp_walls bp_threads bp_divisions bp_signals pr_runs result].
  - given. exists (tx "1.2"). split; [reflexivity|]. split; [reflexivity|]. unfold older. cbn. lia.
  - given. exists (tx "lattice"), [NInt 2], [], [], (tx "lattice", fun pos kw => match pos, kw with [NInt i], [] => Match i | _, _ => NoMatch end), []. repeat split. constructor.
  - given. exists (tx "ball"), [], [], [], (tx "ball", fun _ _ => Match tt), []. repeat split. constructor.
  - given. exists (-1). split; reflexivity.
  - exists (NArray [run_1; run_2]). split; [reflexivity|]. exists [run_1; run_2]. split; [reflexivity|]. constructor; [exact run_1_ok|]. constructor; [exact run_2_ok|]. constructor.
  - constructor; try reflexivity.
    + cbn. left. apply S_number. apply integer.
    + change ((NArray [cl "translation" [NInt 1] []; cl "flip" [] []] = NNone /\ [Translation 1 0; Flip 10] = []) \/ (list_of (moves of_float) (NArray [cl "translation" [NInt 1] []; cl "flip" [] []]) [Translation 1 0; Flip 10] /\ [Translation 1 0; Flip 10] <> [])).
      right. split; [|discriminate]. eexists. split; [reflexivity|]. repeat constructor.
      * eapply M_translation; [called| |reflexivity|left; reflexivity]. given. apply positive. lia.
      * eapply M_flip; [called|reflexivity].
  - reflexivity.
  - reflexivity.
  - reflexivity.
  - reflexivity.
  - cbn. repeat constructor; cbn; intuition discriminate.
  - exists result_1, (Env (Some (DConst 3)) None [Translation 1 0; Flip 10] ScalerDisabled). split; [reflexivity|]. split.
    + unfold last_one_wins. cbn. repeat split.
      * exists [], [None]. split; [reflexivity|repeat constructor].
      * repeat constructor.
      * exists [], [None]. split; [reflexivity|repeat constructor].
      * exists [None], []. split; [reflexivity|constructor].
    + unfold complete. cbn. split; [discriminate|]. split; [discriminate|]. split; [discriminate|]. intros (s & H). discriminate.
Qed.
(** The second run has no pressure, although its box is moved. *)
Lemma second_incomplete : ~ (forall n p, input of_float lattices balls no_one no_one n p -> forall k r e, nth_error (pr_runs p) k = Some r -> last_one_wins (bp_env p :: map run_env (firstn (S k) (pr_runs p))) e -> complete e).
Proof.
  intros H. specialize (H _ _ sample_ok 1%nat result_2 (Env (Some (DConst 3)) None [Translation 1 0; Flip 10] (ScalerSet (DeltaV 2))) eq_refl). destruct H as (_ & _ & _ & H).
  - unfold last_one_wins. cbn. repeat split.
    + exists [], [None; None]. split; [reflexivity|repeat constructor].
    + repeat constructor.
    + exists [], [None; None]. split; [reflexivity|repeat constructor].
    + exists [None; Some None], []. split; [reflexivity|constructor].
  - apply H; [cbn; eauto|reflexivity].
Qed.
Lemma never_averaged : ~ (forall n p, input of_float lattices balls no_one no_one n p -> forall r, In (RunIntegration r) (pr_runs p) -> forall m, in_averaging r = Some m -> 0 < in_averaging_every r <= m).
Proof. intros H. specialize (H _ _ sample_ok _ (or_intror (or_introl eq_refl)) 50 eq_refl). cbn in H. lia. Qed.
End Sample.
Section Refused.
Context {Arr Shp Obs Bulk : Type}.
Variables (of_float : list Z -> R) (arrangements : family Arr) (shapes : family Shp) (observables : family Obs) (bulks : family Bulk).
Lemma array_version kw l p : In (tx "version", NArray l) kw -> regular (NClass (tx "rampack") [] kw) -> ~ input of_float arrangements shapes observables bulks (NClass (tx "rampack") [] kw) p.
Proof.
  intros I R (a & (pos & kw' & E & C & G) & A). injection E as <- <-. destruct (pa_version _ _ _ _ _ _ _ A) as (n & En & s & -> & _). rewrite G in En. cbn [given names rampack_sig map fst] in En. change (text_eqb (tx "version") (tx "version")) with true in En. cbn iota in En.
  inversion R as [| | | | | | |? ? ? _ N _]; subst. clear -En I N. apply (keyword_in kw (tx "version") N) in En. clear -En I N.
  induction kw as [|[k v] kw IH]; [contradiction|]. cbn [map fst] in N. inversion N as [|? ? N1 N2]; subst. destruct I as [I|I], En as [En|En].
  - congruence.
  - injection I as -> _. apply N1. apply (in_map fst) in En. exact En.
  - injection En as -> _. apply N1. apply (in_map fst) in I. exact I.
  - exact (IH I En N2).
Qed.
Lemma single_piece m d : ~ parameter of_float (NClass (tx "piecewise") [m] []) d.
Proof.
  intros [H|(ns & l & E & -> & F & L & _)].
  - inversion H as [? ? [(i & E & _)|(t & E & _)]|? ? ? (pos & kw & E & _)|? ? ? ? (pos & kw & E & _)|? ? ? ? (pos & kw & E & _)]; discriminate.
  - injection E as <-. inversion F as [|? ? ? ? _ F2]; subst. inversion F2; subst. cbn in L. lia.
Qed.
End Refused.
Lemma two_pieces of_float : parameter of_float (cl "piecewise" [cl "piece" [NInt 0; NInt 5] []; cl "piece" [NInt 7; NInt 6] []] []) (DPiecewise [(0, DConst 5); (7, DConst 6)]).
Proof.
  right. eexists _, [(0, DConst 5); (7, DConst 6)]. split; [reflexivity|]. split; [reflexivity|]. split; [|split; [cbn; lia|split; [reflexivity|repeat constructor]]].
  constructor; [|constructor; [|constructor]]; (eexists; split; [called|split; [given; split; [reflexivity|cbn; lia]|given; apply S_number; apply integer]]).
Qed.
Lemma array_version_case : In (tx "version", NArray [NInt 1; NInt 0; NInt 0]) [(tx "version", NArray [NInt 1; NInt 0; NInt 0])] /\ regular (NClass (tx "rampack") [] [(tx "version", NArray [NInt 1; NInt 0; NInt 0])]).
Proof. split; [left; reflexivity|]. constructor; [constructor|repeat constructor; intros []|repeat constructor; cbn; lia]. Qed.
