(** Two observables of a number, and a history. *)
From Coq Require Import ZArith List Bool Lia.
From Verif Require Import OptModel TextModel TextProofs ObsModel ObsSpec.
Import ListNotations.
Open Scope Z_scope.

(** "rho" and "sgn"; "x", "y" *)
Definition ob_density : observable Z Z := Observable Z Z [114] [[114; 104; 111]] [[115; 103; 110]] (fun p => [p]) (fun p => [if Z.ltb 0 p then [43] else [45]]).
Definition ob_pair : observable Z Z := Observable Z Z [112] [[120]; [121]] [] (fun p => [p; p + 1]) (fun _ => []).
Definition some_obs : list (observable Z Z * kind) := [(ob_density, Kind true true false); (ob_pair, Kind false false true); (ob_pair, Kind true true true)].
Definition some_events : list (event Z) := [Snapshot Z 5 2; Average Z 3; Clear Z; Snapshot Z 10 4; Average Z 7; Average Z 9; Snapshot Z 20 6].
Lemma some_regular : Forall (fun ok => regular Z Z (fst ok)) some_obs.
Proof. repeat (constructor; [intros p; split; reflexivity|]). constructor. Qed.
Lemma some_names : names Z Z some_obs <> []. Proof. discriminate. Qed.
Lemma some_clean : clean_observables Z Z decimal some_obs.
Proof.
  assert (L : forall z, one_line (decimal z)) by (intros z; eapply Forall_impl; [|apply decimal_no_space]; intros a Ha ->; discriminate Ha).
  split; [repeat (constructor; [repeat (constructor; [discriminate|]); constructor|]); constructor|]. intros p. constructor; [apply L|]. constructor; [destruct (Z.ltb 0 p); (constructor; [discriminate|constructor])|].
  constructor; [apply L|]. constructor; [apply L|constructor].
Qed.
Lemma some_cycles : clean_cycles Z (all_snapshots Z some_events).
Proof. repeat (constructor; [cbn [fst]; split; [lia|reflexivity]|]). constructor. Qed.
Definition some_collector : collector Z Z := match with_observables Z Z some_obs (no_collector Z Z) with Some c => c | None => no_collector Z Z end.
Lemma some_added : with_observables Z Z some_obs (no_collector Z Z) = Some some_collector. Proof. reflexivity. Qed.
Definition later_collector : collector Z Z := match after Z Z decimal some_events some_collector with Some c => c | None => no_collector Z Z end.
Lemma some_later : after Z Z decimal some_events some_collector = Some later_collector. Proof. vm_compute. reflexivity. Qed.
Definition blank_collector : collector Z Z := match with_observables Z Z [(ob_density, Kind false true false)] (no_collector Z Z) with Some c => c | None => no_collector Z Z end.
Definition blank_later : collector Z Z := match after Z Z decimal [Snapshot Z 5 2] blank_collector with Some c => c | None => no_collector Z Z end.
Definition blank_added : collector Z Z := match addObservable Z Z ob_pair (Kind true false false) blank_later with Some c => c | None => no_collector Z Z end.
