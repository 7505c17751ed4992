(** Strictness, and what is not read back. *)
From Coq Require Import ZArith List Bool Lia String.
From Verif Require Import TextModel TextProofs ConfigExamples PyonModel PyonSpec PyonLexProofs PyonProofs PyonExprProofs PyonSoundProofs PyonPrintSpec PyonPrintProofs.
Import ListNotations.
Open Scope Z_scope.

Theorem parse_layout erange r t g g' : writes (clean_number erange) r t -> gap g -> last_gap g' -> parse erange (g ++ t ++ g') = match value r with Some v => Ok v | None => Err end.
Proof.
  intros H G G'. pose proof (parse_fuel erange (S (List.length (g ++ t ++ g'))) (g ++ t ++ g') ltac:(lia)) as [<- _]. apply parse_back; auto. rewrite !app_length. lia.
Qed.
Theorem parse_total erange s : (exists v, parse erange s = Ok v) \/ parse erange s = Err.
Proof. destruct (parse_fuel erange (S (List.length s)) s ltac:(lia)) as [_ N]. destruct (parse erange s) as [v| |]; [left; eauto|right; reflexivity|contradiction N; reflexivity]. Qed.
Theorem parse_accepts erange s v : parse erange s = Ok v -> exists g r t g', s = g ++ t ++ g' /\ gap g /\ last_gap g' /\ writes (any_number erange) r t /\ value r = Some v.
Proof. apply parse_sound. Qed.

(** Values of things with repetitions. *)
Lemma nodup_distinct ks : distinct ks = true -> NoDup ks.
Proof.
  induction ks as [|k ks IH]; [constructor|]. cbn [distinct]. intros H. apply andb_true_iff in H. destruct H as [H1 H2]. constructor; [|auto]. intros I. apply negb_true_iff in H1. assert (E : existsb (text_eqb k) ks = true) by (apply existsb_exists; exists k; split; [exact I|apply text_eqb_refl]). congruence.
Qed.
Lemma all_keys {K A B} (h : A -> option B) (l : list (K * A)) d : all (map (fun e => match e with (k, r) => option_map (pair k) (h r) end) l) = Some d -> map fst d = map fst l.
Proof.
  revert d. induction l as [|[k r] l IH]; intros d H; cbn [map all] in H; [injection H as <-; reflexivity|]. destruct (h r) as [b|]; cbn [option_map] in H; [|discriminate]. destruct (all _) as [d'|]; [|discriminate]. cbn [option_map] in H. injection H as <-. cbn [map fst]. rewrite (IH d' eq_refl). reflexivity.
Qed.
Lemma duplicate_key l : ~ NoDup (map fst l) -> value (RDict l) = None.
Proof.
  intros N. cbn [value]. destruct (all _) as [d|] eqn:E; [|reflexivity]. apply all_keys in E. destruct (distinct (map fst d)) eqn:Ed; [|reflexivity]. apply nodup_distinct in Ed. rewrite E in Ed. contradiction.
Qed.
Lemma keywords_keys l k : keywords l = Some k -> map fst l = map (fun e => Some (fst e)) k.
Proof.
  revert k. induction l as [|[[n|] v] l IH]; intros k H; cbn [keywords] in H; [injection H as <-; reflexivity| |discriminate]. destruct (keywords l) as [k'|]; [|discriminate]. cbn in H. injection H as <-. cbn [map fst]. rewrite (IH k' eq_refl). reflexivity.
Qed.
Lemma bind_keys l q : bind_args l = Some q -> exists (p : list node) k, map fst l = map (fun _ => None) p ++ map Some k /\ NoDup k /\ List.length p = List.length (fst q) /\ k = map fst (snd q).
Proof.
  revert q. induction l as [|[[n|] v] l IH]; intros q H.
  - cbn in H. injection H as <-. exists (@nil node), []. repeat split; constructor.
  - change (bind_args ((Some n, v) :: l)) with (match keywords ((Some n, v) :: l) with Some kw => if distinct (map fst kw) then Some (@nil node, kw) else None | None => None end) in H. destruct (keywords ((Some n, v) :: l)) as [kw|] eqn:E; [|discriminate]. destruct (distinct (map fst kw)) eqn:D; [|discriminate]. injection H as <-. exists (@nil node), (map fst kw). split; [rewrite (keywords_keys _ _ E), map_map; reflexivity|]. cbn [fst snd]. split; [apply nodup_distinct; exact D|auto].
  - cbn [bind_args] in H. destruct (bind_args l) as [q'|]; [|discriminate]. cbn in H. injection H as <-. destruct (IH q' eq_refl) as (p & k & E & N & L & K). exists (NNone :: p), k. cbn [map fst snd app List.length]. rewrite E, L. auto.
Qed.
Lemma class_keys n l v : value (RClass n l) = Some v -> exists (p : list node) k, map fst l = map (fun _ => None) p ++ map Some k /\ NoDup k.
Proof.
  cbn [value]. destruct (all _) as [d|] eqn:E; [|discriminate]. apply all_keys in E. destruct (bind_args d) as [q|] eqn:Eb; [|discriminate]. intros _. destruct (bind_keys d q Eb) as (p & k & Ek & N & _). exists p, k. rewrite <- E. auto.
Qed.
Lemma keywords_tail {A} (p : list A) (k : list (list Z)) a n b : map (fun _ => None) p ++ map Some k = a ++ Some n :: b -> exists k', b = map Some k' /\ exists k0, k = k0 ++ n :: k'.
Proof.
  revert a. induction p as [|x p IH]; intros a E; cbn [map app] in E.
  - revert a E. induction k as [|m k IH]; intros a E; cbn [map] in E; [destruct a; discriminate|]. destruct a as [|y a]; cbn [app] in E.
    + injection E as -> <-. exists k. split; [reflexivity|]. exists []. reflexivity.
    + injection E as _ E. destruct (IH a E) as (k' & -> & k0 & ->). exists k'. split; [reflexivity|]. exists (m :: k0). reflexivity.
  - destruct a as [|y a]; cbn [app] in E; [discriminate|]. injection E as _ E. exact (IH a E).
Qed.
Lemma positional_after_keyword n a m x b y c : value (RClass n (a ++ (Some m, x) :: b ++ (None, y) :: c)) = None.
Proof.
  destruct (value _) as [v|] eqn:E; [|reflexivity]. exfalso. destruct (class_keys _ _ _ E) as (p & k & Ek & _). rewrite map_app in Ek. cbn [map fst] in Ek. symmetry in Ek. destruct (keywords_tail p k _ m _ Ek) as (k' & Eb & _). rewrite map_app in Eb. cbn [map fst] in Eb. assert (I : In None (map Some k')) by (rewrite <- Eb; apply in_app_iff; right; left; reflexivity). apply in_map_iff in I. destruct I as (z & X & _). discriminate.
Qed.
Lemma duplicate_keyword n a m x b y c : value (RClass n (a ++ (Some m, x) :: b ++ (Some m, y) :: c)) = None.
Proof.
  destruct (value _) as [v|] eqn:E; [|reflexivity]. exfalso. destruct (class_keys _ _ _ E) as (p & k & Ek & N). rewrite map_app in Ek. cbn [map fst] in Ek. symmetry in Ek. destruct (keywords_tail p k _ m _ Ek) as (k' & Eb & k0 & K). rewrite map_app in Eb. cbn [map fst] in Eb. assert (I : In (Some m) (map Some k')) by (rewrite <- Eb; apply in_app_iff; right; left; reflexivity). apply in_map_iff in I. destruct I as (z & X & I). injection X as ->. subst k. apply NoDup_remove_2 in N. apply N. apply in_app_iff. right. exact I.
Qed.

(** Examples. *)
Definition never : list Z -> bool := fun _ => false.
Definition some_node : node := NClass (codes "domain") [NInt (-42); NArray [NFloat (codes "1.5e3"); NNone; NArray []]] [(codes "key", NDict [(codes "a b", NBool true); (codes "", NString (newline :: codes "say ""x""\"))])].
Ltac each := unfold PyonSpec.decimal_digits; match goal with |- Forall _ ?l => let v := eval vm_compute in l in change l with v end; repeat (apply Forall_cons; [unfold letter; lia|]); apply Forall_nil.
Lemma some_proper : proper never some_node.
Proof.
  unfold some_node. apply P_class.
  - exists 100, (codes "omain"). split; [reflexivity|]. split; [unfold letter; lia|]. each.
  - intros [H|[H|H]]; discriminate.
  - constructor; [apply P_int; unfold in_range; lia|]. constructor; [|constructor]. apply P_array. constructor; [|constructor; [constructor|constructor; [apply P_array; constructor|constructor]]]. apply P_float; [|reflexivity].
    apply (Cf_point [] 1 (codes "1") (codes "5") (codes "e3")); [left; auto|each|each|discriminate|cbn; lia|]. right. exists 101, [], 1, (codes "3"). split; [reflexivity|]. split; [auto|]. split; [left; auto|]. split; [each|discriminate].
  - constructor; [|constructor]. apply P_dict; [repeat constructor|]. constructor; [intros [H|[]]; discriminate|]. constructor; [intros []|constructor].
  - constructor; [|constructor]. exists 107, (codes "ey"). split; [reflexivity|]. split; [unfold letter; lia|]. each.
  - constructor; [intros []|constructor].
Qed.
Lemma never_sane : sane never. Proof. intros sg k ds _ _ _. reflexivity. Qed.
Lemma some_print : print some_node = codes "domain(-42, [1.5e3, None, []], key={""a b"": True, """": ""\nsay \""x\""\\""})". Proof. vm_compute. reflexivity. Qed.
Lemma quirks :
  parse never (codes "100000000000000000000.0") = Err /\ parse never (codes "10000000000000000.0") = Ok (NFloat (codes "10000000000000000.0")) /\
  parse never (codes "0b -101") = Ok (NInt (-5)) /\ parse never (codes "010") = Ok (NInt 8) /\ parse never (codes "08") = Ok (NFloat (codes "08")) /\ parse never (codes "[1, 2, ]") = Err /\ parse never (codes "[1, 2] 3") = Err.
Proof. vm_compute. repeat split. Qed.
