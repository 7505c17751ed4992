(** Configurations made by parsing and by taking out a section. *)
From Coq Require Import ZArith List Bool Lia Permutation.
From Verif Require Import OptModel TextModel TextProofs StringsModel StringsSpec StringsProofs LinesSpec LinesProofs ConfigModel ConfigSpec ConfigProofs.
Import ListNotations.
Open Scope Z_scope.

Lemma once_list : forall ns l u seen, once l u -> (forall n, In n seen <-> In n u) -> once (l ++ ns) (u ++ list_once ns seen).
Proof.
  induction ns as [|n ns IH]; intros l u seen O H; cbn [list_once]; [rewrite !app_nil_r; exact O|]. destruct (member n seen) eqn:E.
  - apply member_iff in E. change (n :: ns) with ([n] ++ ns). rewrite app_assoc. apply IH; [|exact H]. constructor; [exact O|apply H; exact E].
  - apply member_false in E. change (n :: ns) with ([n] ++ ns). change (n :: list_once ns (n :: seen)) with ([n] ++ list_once ns (n :: seen)). rewrite !app_assoc. apply IH.
    + constructor; [exact O|]. rewrite <- H. exact E.
    + intros m. rewrite in_app_iff. cbn [In]. rewrite H. tauto.
Qed.
Lemma once_built ns : once ns (list_once ns []).
Proof. apply (once_list ns [] [] []); [constructor|]. tauto. Qed.
Lemma cut_at_some d l a b : cut_at d l = Some (a, b) -> l = a ++ d :: b /\ ~ In d a.
Proof.
  revert a b. induction l as [|c l IH]; intros a b H; cbn [cut_at] in H; [discriminate|]. destruct (Z.eqb_spec c d) as [->|N].
  - injection H as <- <-. split; [reflexivity|intros []].
  - destruct (cut_at d l) as [[x y]|]; [|discriminate]. cbn in H. injection H as <- <-. destruct (IH x y eq_refl) as [-> I]. split; [reflexivity|]. intros [X|X]; [contradiction|auto].
Qed.
Lemma cut_at_none d l : cut_at d l = None -> ~ In d l.
Proof.
  induction l as [|c l IH]; intros H; cbn [cut_at] in H; [intros []|]. destruct (Z.eqb_spec c d) as [->|N]; [discriminate|]. destruct (cut_at d l); [discriminate|]. intros [X|X]; [contradiction|exact (IH eq_refl X)].
Qed.
Lemma cut_last_none d l : cut_last d l = None <-> ~ In d l.
Proof.
  induction l as [|c l IH]; cbn [cut_last In]; [split; [intros _ []|reflexivity]|]. destruct (cut_last d l) eqn:E.
  - split; [discriminate|]. intros N. exfalso. destruct IH as [_ IH]. enough (Some l0 = None) by discriminate. apply IH. tauto.
  - destruct (Z.eqb_spec c d) as [->|N]; [split; [discriminate|tauto]|]. split; [|reflexivity]. intros _ [X|X]; [contradiction|]. apply IH; auto.
Qed.
Lemma cut_last_some d l a : cut_last d l = Some a -> exists b, l = a ++ d :: b /\ ~ In d b.
Proof.
  revert a. induction l as [|c l IH]; intros a H; cbn [cut_last] in H; [discriminate|]. destruct (cut_last d l) as [x|] eqn:E.
  - injection H as <-. destruct (IH x eq_refl) as (b & -> & N). exists b. split; [reflexivity|exact N].
  - destruct (Z.eqb_spec c d) as [->|N]; [|discriminate]. injection H as <-. exists l. split; [reflexivity|apply cut_last_none; exact E].
Qed.
Lemma sections_of keys : exists ns, Forall2 in_section keys ns /\ once ns (buildSections keys).
Proof.
  exists (map (fun k => match cut_last 46 k with None => [] | Some s => s end) keys). split; [|apply once_built]. induction keys as [|k keys IH]; [constructor|]. cbn [map]. constructor; [|exact IH]. destruct (cut_last 46 k) as [s|] eqn:E.
  - left. destruct (cut_last_some _ _ _ E) as (b & -> & N). exists b. auto.
  - right. split; [reflexivity|]. apply cut_last_none. exact E.
Qed.
Lemma roots_of keys : exists ns, Forall2 in_root keys ns /\ once ns (buildRootSections keys).
Proof.
  exists (map (fun k => match cut_at 46 k with None => [] | Some r => fst r end) keys). split; [|apply once_built]. induction keys as [|k keys IH]; [constructor|]. cbn [map]. constructor; [|exact IH]. destruct (cut_at 46 k) as [[a b]|] eqn:E.
  - left. destruct (cut_at_some _ _ _ _ E) as (-> & N). exists b. auto.
  - right. split; [reflexivity|]. apply cut_at_none. exact E.
Qed.
Lemma build_holds m keys fs : keys = map fst fs -> NoDup (map fst fs) -> (forall k v, lookup k m = Some v <-> In (k, v) fs) -> holds_fields fs (build m keys).
Proof. intros -> D M. split; [reflexivity|]. split; [exact D|]. split; [exact M|]. split; [apply sections_of|apply roots_of]. Qed.
Lemma parse_meaning d allow is ls t : clean_delimiter d -> file d is ls -> text_of ls t ->
  match meaning allow is [] [] with None => parse t d allow = None | Some fs => exists c, parse t d allow = Some c /\ holds_fields fs c end.
Proof.
  intros D F T. unfold parse. rewrite (getlines_text ls t (file_lines d is ls D F) T). destruct D as (D1 & D2 & D3 & D'). apply Z.eqb_neq in D2 as E2. apply Z.eqb_neq in D3 as E3. rewrite E2, E3. cbn [orb].
  destruct (file_agrees d allow is ls (conj D1 (conj D2 (conj D3 D'))) F (Parser [] [] [] [] false) [] []) as (sec & A).
  - split; [reflexivity|]. split; [constructor|]. split; [|reflexivity]. intros k v. cbn. split; [discriminate|intros []].
  - reflexivity.
  - destruct (meaning allow is [] []) as [fs|]; cbn [agrees] in A; [|rewrite A; reflexivity]. destruct A as (p & E & (K & N & M & _) & C). rewrite E. cbn [obind]. rewrite C. eexists. split; [reflexivity|]. apply build_holds; auto.
Qed.
Lemma bad_delimiter t d allow : d = 35 \/ d = 59 -> parse t d allow = None.
Proof. intros [->| ->]; reflexivity. Qed.
(** A line ending with a backslash after which there is nothing. *)
Lemma blanks_keep d allow bs : Forall (around []) bs -> forall p, parse_lines d allow bs p = Some p.
Proof. induction 1 as [|b bs H _ IH]; intros p; [reflexivity|]. cbn [parse_lines]. rewrite line_blank by exact H. apply IH. Qed.
Lemma dangling d allow ls s l bs t : Forall (Forall (fun c => c <> newline)) ls -> no_comment s -> around (s ++ [92]) l -> Forall (around []) bs -> text_of (ls ++ l :: bs) t -> parse t d allow = None.
Proof.
  intros F N A B T. assert (Ns : no_comment (s ++ [92])) by (apply Forall_app; split; [exact N|apply code_clean; unfold newline; discriminate]).
  assert (Fl : Forall (Forall (fun c => c <> newline)) (ls ++ l :: bs)).
  { apply Forall_app. split; [exact F|]. constructor; [eapply around_line; [|exact A]; exact Ns|]. eapply Forall_impl; [|exact B]. intros b Hb. eapply around_line; [|exact Hb]. constructor. }
  unfold parse. destruct (Z.eqb d 35 || Z.eqb d 59); [reflexivity|]. rewrite (getlines_text _ _ Fl T), parse_lines_app. destruct (parse_lines d allow ls _) as [p|]; [|reflexivity]. cbn [obind parse_lines].
  rewrite (line_more d allow l p (s ++ [92]) Ns A); [|exists (skip_ws s); apply (trim_two s 92 []); reflexivity]. cbn [obind]. rewrite blanks_keep by exact B. reflexivity.
Qed.

(** Taking out a section. *)
Definition selected (section k : list Z) : option (list Z) :=
  match section with
  | [] => if existsb (Z.eqb 46) k then None else Some k
  | _ => if startsWith k (section ++ [46]) then Some (skipn (length section + 1) k) else None
  end.
Lemma selected_some section k k' : selected section k = Some k' <-> belongs section k k'.
Proof.
  unfold selected, belongs. destruct section as [|c s].
  - destruct (existsb (Z.eqb 46) k) eqn:E.
    + split; [discriminate|]. intros [(_ & _ & N)|(N & _)]; [|contradiction N; reflexivity]. exfalso. apply N. apply existsb_exists in E. destruct E as (x & I & X). apply Z.eqb_eq in X. subst x. exact I.
    + split; [intros X; injection X as <-; left; split; [reflexivity|]; split; [reflexivity|]|intros [(_ & -> & _)|(N & _)]; [reflexivity|contradiction N; reflexivity]]. apply no_dot_existsb in E. rewrite Forall_forall in E. intros I. exact (E 46 I eq_refl).
  - assert (L : forall r, skipn (length (c :: s) + 1) ((c :: s) ++ 46 :: r) = r).
    { intros r. rewrite skipn_app. replace (length (c :: s) + 1 - length (c :: s))%nat with 1%nat by lia. rewrite skipn_all2 by lia. reflexivity. }
    destruct (startsWith k ((c :: s) ++ [46])) eqn:E.
    + apply startsWith_iff in E. destruct E as (r & ->). rewrite <- app_assoc. change ([46] ++ r) with (46 :: r). rewrite L. split; [intros X; injection X as <-; right; split; [discriminate|reflexivity]|].
      intros [(X & _)|(_ & X)]; [discriminate|]. apply app_inv_head in X. injection X as ->. reflexivity.
    + split; [discriminate|]. intros [(X & _)|(_ & ->)]; [discriminate|]. exfalso. apply not_true_iff_false in E. apply E. apply startsWith_iff. exists k'. rewrite <- app_assoc. reflexivity.
Qed.
Lemma belongs_inj section k1 k2 k' : belongs section k1 k' -> belongs section k2 k' -> k1 = k2.
Proof. intros [(A & B & _)|(A & B)] [(C & D & _)|(C & D)]; congruence. Qed.
Lemma picked_in section fs fs' : picked section fs fs' -> forall k' v, In (k', v) fs' -> exists k, In (k, v) fs /\ belongs section k k'.
Proof.
  induction 1 as [|k k' v fs fs' B P IH|k v fs fs' N P IH]; intros x y I.
  - destruct I.
  - destruct I as [E|I]; [injection E as <- <-; exists k; split; [left; reflexivity|exact B]|]. destruct (IH x y I) as (z & Z1 & Z2). exists z. split; [right; exact Z1|exact Z2].
  - destruct (IH x y I) as (z & Z1 & Z2). exists z. split; [right; exact Z1|exact Z2].
Qed.
Lemma picked_nodup section fs fs' : picked section fs fs' -> NoDup (map fst fs) -> NoDup (map fst fs').
Proof.
  induction 1 as [|k k' v fs fs' B P IH|k v fs fs' N P IH]; intros D; cbn [map fst] in *; [constructor| |inversion D; auto]. inversion D as [|x l Nx D']. subst. constructor; [|auto]. intros I. apply in_map_iff in I. destruct I as ([a b] & E & I). cbn in E. subst a.
  destruct (picked_in section fs fs' P k' b I) as (k2 & I2 & B2). apply Nx. rewrite (belongs_inj section k k2 k' B B2). apply (in_map fst) in I2. exact I2.
Qed.
Lemma in_fst_unique {B} (fs : list (list Z * B)) k v w : NoDup (map fst fs) -> In (k, v) fs -> In (k, w) fs -> v = w.
Proof.
  induction fs as [|[a b] fs IH]; intros D I J; [destruct I|]. cbn [map fst] in D. inversion D as [|x l N D']. subst. destruct I as [I|I], J as [J|J].
  - congruence.
  - injection I as <- <-. exfalso. apply N. apply (in_map fst) in J. exact J.
  - injection J as <- <-. exfalso. apply N. apply (in_map fst) in I. exact I.
  - auto.
Qed.
Lemma fetch_picks section m fs : (forall k v, In (k, v) fs -> lookup k m = Some v) -> NoDup (map fst fs) -> forall acc out done, out = map fst done -> (forall k v, lookup k acc = Some v <-> In (k, v) done) ->
  (forall k' , In k' (map fst done) -> forall k, In k (map fst fs) -> ~ belongs section k k') ->
  exists fs' acc', fetch_keys (selected section) m (map fst fs) acc out = Some (acc', out ++ map fst fs') /\ picked section fs fs' /\ (forall k v, lookup k acc' = Some v <-> In (k, v) (done ++ fs')).
Proof.
  induction fs as [|[k v] fs IH]; intros M D acc out dn Eo Ha Hd; cbn [map fst fetch_keys].
  - exists [], acc. split; [rewrite app_nil_r; reflexivity|]. split; [constructor|]. intros. rewrite app_nil_r. apply Ha.
  - cbn [map fst] in D. inversion D as [|x l N D']. subst x l. destruct (selected section k) as [k'|] eqn:E.
    + rewrite (M k v) by (left; reflexivity). cbn [obind]. pose proof (proj1 (selected_some section k k') E) as B.
      destruct (IH (fun a b I => M a b (or_intror I)) D' (map_set k' v acc) (out ++ [k']) (dn ++ [(k', v)])) as (fs' & acc' & F & P & H).
      * rewrite map_app, Eo. reflexivity.
      * intros a b. rewrite lookup_set, in_app_iff. cbn [In]. destruct (text_eqb a k') eqn:Ea.
        -- apply text_eqb_eq in Ea. subst a. split; [intros X; injection X as <-; auto|]. intros [X|[X|[]]]; [|injection X as <-; reflexivity]. exfalso. apply (in_map fst) in X. exact (Hd k' X k (or_introl eq_refl) B).
        -- apply text_eqb_neq in Ea. rewrite Ha. split; [auto|]. intros [X|[X|[]]]; [exact X|]. injection X as <- _. contradiction Ea; reflexivity.
      * intros a I b J Bb. rewrite map_app, in_app_iff in I. destruct I as [I|[<-|[]]]; [exact (Hd a I b (or_intror J) Bb)|]. cbn [fst] in Bb. apply N. rewrite (belongs_inj section k b k' B Bb). exact J.
      * exists ((k', v) :: fs'), acc'. split; [rewrite F; cbn [map fst]; rewrite <- app_assoc; reflexivity|]. split; [constructor; auto|]. intros a b. rewrite H, <- app_assoc. reflexivity.
    + destruct (IH (fun a b I => M a b (or_intror I)) D' acc out dn Eo Ha (fun a I b J => Hd a I b (or_intror J))) as (fs' & acc' & F & P & H). exists fs', acc'. split; [exact F|]. split; [|exact H].
      constructor; [|exact P]. intros k' B. apply selected_some in B. congruence.
Qed.
Lemma sub_fields fs c section : holds_fields fs c -> In section (cf_sections c) -> exists fs' c', fetchSubconfig c section = Some c' /\ picked section fs fs' /\ holds_fields fs' c'.
Proof.
  intros (K & D & M & _) I. unfold fetchSubconfig, hasSection. apply member_iff in I. rewrite I.
  destruct (fetch_picks section (cf_map c) fs (fun k v X => proj2 (M k v) X) D [] [] [] eq_refl) as (fs' & acc' & F & P & H).
  - intros k v. cbn. split; [discriminate|intros []].
  - intros k' [].
  - unfold selected in F. rewrite K, F. cbn [obind fst snd app]. exists fs'. eexists. split; [reflexivity|]. split; [exact P|]. apply build_holds; [reflexivity|eapply picked_nodup; eauto|]. intros k v. rewrite H. reflexivity.
Qed.
Lemma sub_missing c section : ~ In section (cf_sections c) -> fetchSubconfig c section = None.
Proof. intros N. unfold fetchSubconfig, hasSection. apply member_false in N. rewrite N. reflexivity. Qed.
Lemma has_field_iff fs c k : holds_fields fs c -> (hasField c k = true <-> exists v, In (k, v) fs) /\ (hasField c k = true <-> getString c k <> None).
Proof.
  intros (K & D & M & _). unfold hasField. rewrite K, member_iff, in_map_iff. assert (A : (exists x, fst x = k /\ In x fs) <-> exists v, In (k, v) fs).
  { split; [intros ([a b] & <- & I); exists b; exact I|intros (v & I); exists (k, v); auto]. } split; [exact A|]. rewrite A. destruct (getString c k) as [v|] eqn:E.
  - split; [discriminate|]. intros _. exists v. apply M. exact E.
  - split; [|intros X; contradiction X; reflexivity]. intros (v & I). apply M in I. congruence.
Qed.
Lemma once_in l u : once l u -> (forall n, In n u <-> In n l) /\ NoDup u.
Proof.
  induction 1 as [|l u n O [IH D] I|l u n O [IH D] I]; [split; [tauto|constructor]| |].
  - split; [|exact D]. intros m. rewrite in_app_iff, IH. cbn [In]. split; [auto|]. intros [X|[<-|[]]]; [exact X|apply IH; exact I].
  - split; [|apply NoDup_snoc; auto]. intros m. rewrite !in_app_iff, IH. tauto.
Qed.
