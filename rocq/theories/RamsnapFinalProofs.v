From Coq Require Import ZArith List Bool Lia.
From Verif Require Import OptModel TextModel TextProofs RamsnapModel RamsnapSpec RamsnapProofs RamsnapExamples.
Import ListNotations.
Open Scope Z_scope.

Lemma stored_file D show scan zero hasVolume m box ss : @exact_codec D show scan -> clean_map m -> clean_packing box ss -> hasVolume box = true ->
  exists l, write D show m box ss = Some l /\ read D scan zero hasVolume l = Some (m, box, ss).
Proof.
  intros C M P V. destruct (write D show m box ss) as [l|] eqn:W.
  - exists l. split; [reflexivity|]. eapply read_back; eauto.
  - exfalso. unfold write in W. destruct (aux_back m [] M) as (a & Ea & _). rewrite Ea in W. discriminate.
Qed.
Lemma key_refused D show m box ss : (exists k v c, In (k, v) m /\ In c k /\ is_space c = true) -> write D show m box ss = None.
Proof.
  intros (k & v & c & Hm & Hc & Hs). unfold write, storeAuxInfo. destruct (forallb _ m) eqn:E; [|reflexivity]. exfalso. rewrite forallb_forall in E. specialize (E _ Hm). cbn [fst] in E.
  apply negb_true_iff in E. apply not_true_iff_false in E. apply E. apply existsb_exists. eauto.
Qed.
Lemma old_file D show scan zero hasVolume m a x y z ss : @exact_codec D show scan -> clean_map m -> clean_packing [x; zero; zero; zero; y; zero; zero; zero; z] ss -> hasVolume [x; zero; zero; zero; y; zero; zero; zero; z] = true ->
  storeAuxInfo m = Some a ->
  read D scan zero hasVolume (a ++ (show x ++ space :: show y ++ space :: show z ++ [newline]) ++ storeShapes D show ss) = Some (m, [x; zero; zero; zero; y; zero; zero; zero; z], ss).
Proof.
  intros C M (Lb & F & L) V A.
  assert (E : (show x ++ space :: show y ++ space :: show z ++ [newline]) ++ storeShapes D show ss = spaced D show [x; y; z] ++ newline :: storeShapes D show ss)
    by (cbn [spaced]; rewrite <- !app_assoc; cbn [app]; rewrite <- !app_assoc; cbn [app]; rewrite <- !app_assoc; reflexivity).
  rewrite E. destruct (aux_back m (spaced D show [x; y; z] ++ newline :: storeShapes D show ss) M) as (a' & Ea & R). rewrite Ea in A. injection A as <-.
  unfold read. rewrite R. cbn [obind fst snd]. rewrite (box_old D show scan zero hasVolume C) by exact V. cbn [obind fst snd]. destruct (shapes_back D show scan C ss F L) as (r & ->). reflexivity.
Qed.
Lemma flat_refused D show scan zero hasVolume m box ss l : @exact_codec D show scan -> clean_map m -> clean_packing box ss -> hasVolume box = false -> write D show m box ss = Some l ->
  read D scan zero hasVolume l = None.
Proof.
  intros C M (Lb & F & L) V W. unfold write in W. destruct (aux_back m (storeBox D show box ++ storeShapes D show ss) M) as (a & Ea & R). rewrite Ea in W. cbn [obind] in W. apply (f_equal (fun o => match o with Some x => x | None => [] end)) in W. cbn in W. subst l.
  unfold read. rewrite R. cbn [obind fst snd].
  pose proof (box_back D show scan zero (fun _ => true) C box (storeShapes D show ss) Lb eq_refl) as B. unfold restoreBox in *.
  destruct (getline newline (storeBox D show box ++ storeShapes D show ss)) as [line|]; [|discriminate B]. cbn [obind] in *.
  destruct (scans D scan 3 (fst line)) as [old|]; [|discriminate B]. cbn [obind] in *.
  match type of B with obind ?X _ = _ => remember X as bx eqn:Ex end. clear Ex. destruct bx as [bx|]; [|reflexivity]. cbn [obind] in *. injection B as -> _. rewrite V. reflexivity.
Qed.
Lemma none_lost D show scan zero hasVolume box ss l : @exact_codec D show scan -> write D show [] box ss = Some l -> read D scan zero hasVolume l = None.
Proof. intros C. apply none_empty; auto. Qed.
