(** Lines of an INI file and the fields which they make. *)
From Coq Require Import ZArith List Bool Lia Permutation.
From Verif Require Import OptModel TextModel TextProofs StringsModel StringsSpec StringsProofs LinesSpec LinesProofs ConfigModel ConfigSpec.
Import ListNotations.
Open Scope Z_scope.

Lemma space_no_comment c : is_space c = true -> c <> 59 /\ c <> 35.
Proof. intros H. split; intros ->; discriminate H. Qed.
Lemma blank_spaces w : blank w -> spaces w. Proof. intros H. apply H. Qed.
Lemma blank_clean w : blank w -> no_comment w.
Proof. intros [H1 H2]. unfold no_comment, spaces in *. rewrite Forall_forall in *. intros c Hc. specialize (H1 c Hc). specialize (H2 c Hc). cbn in H1, H2. destruct (space_no_comment c H1). auto. Qed.
Lemma strip_clean l c : no_comment l -> comment c -> stripComment (l ++ c) = l.
Proof.
  induction 1 as [|x l (H1 & H2 & H3) _ IH]; intros C.
  - destruct C as [->|(x & r & -> & [->| ->] & _)]; reflexivity.
  - cbn [app stripComment]. destruct (Z.eqb_spec x 59); [contradiction|]. destruct (Z.eqb_spec x 35); [contradiction|]. cbn [orb]. rewrite IH by exact C. reflexivity.
Qed.
Lemma trim_outer w s w' : spaces w -> spaces w' -> trim (w ++ s ++ w') = trim s.
Proof.
  intros W W'. destruct (trim_split s) as (a & b & A & B & E & T). rewrite E at 1. replace (w ++ (a ++ trim s ++ b) ++ w') with ((w ++ a) ++ trim s ++ (b ++ w')) by (rewrite <- !app_assoc; reflexivity).
  apply trim_around; [apply Forall_app; auto|exact T|apply Forall_app; auto].
Qed.
Lemma no_comment_app a b : no_comment (a ++ b) <-> no_comment a /\ no_comment b. Proof. apply Forall_app. Qed.
Lemma partial_of s l : no_comment s -> around s l -> trim (stripComment l) = trim s.
Proof.
  intros N A. inversion A as [w w' c W W' C E]. rewrite !app_assoc, strip_clean; [rewrite <- app_assoc; apply trim_outer; apply blank_spaces; assumption| |exact C].
  apply Forall_app. split; [apply Forall_app; split; [apply blank_clean, W|exact N]|apply blank_clean, W'].
Qed.
Lemma around_line s l : no_comment s -> around s l -> Forall (fun c => c <> newline) l.
Proof.
  intros N A. inversion A as [w w' c W W' C E]. repeat (apply Forall_app; split); [apply W| |apply W'|].
  - eapply Forall_impl; [|exact N]. intros x (_ & _ & H). exact H.
  - destruct C as [->|(x & r & -> & H & F)]; [constructor|]. constructor; [|exact F]. unfold newline. lia.
Qed.

Lemma trim_right v w : trimmed v -> spaces w -> trim (v ++ w) = v.
Proof. intros T W. exact (trim_around [] v w (Forall_nil _) T W). Qed.

(** Text around a delimiter. *)
Lemma trim_two P d Q : is_space d = false -> trim (P ++ d :: Q) = skip_ws P ++ d :: rtrim Q.
Proof.
  intros D. destruct (skip_ws_split P) as (w & W & EP & HP). destruct (rtrim_split Q) as (w' & W' & EQ & HQ). rewrite EP at 1. rewrite EQ at 1.
  replace ((w ++ skip_ws P) ++ d :: rtrim Q ++ w') with (w ++ (skip_ws P ++ d :: rtrim Q) ++ w') by (rewrite <- !app_assoc; reflexivity). apply trim_around; auto. split.
  - intros c r E. destruct (skip_ws P) as [|x p] eqn:Es; injection E as <- _; [exact D|eapply HP; reflexivity].
  - intros c r E. destruct (rtrim Q) as [|x q] eqn:Eq; [apply app_inj_tail in E; destruct E as [_ <-]; exact D|].
    destruct (@exists_last _ (x :: q) ltac:(discriminate)) as (q' & y & Ey). rewrite Ey in E, HQ. change (d :: q' ++ [y]) with ((d :: q') ++ [y]) in E. rewrite app_assoc in E. apply app_inj_tail in E. destruct E as [_ <-]. eapply HQ. reflexivity.
Qed.
Lemma trim_skip P : trim (skip_ws P) = trim P.
Proof. destruct (skip_ws_split P) as (w & W & E & _). rewrite E at 2. rewrite <- (app_nil_r (skip_ws P)) at 2. symmetry. apply trim_outer; [exact W|constructor]. Qed.
Lemma skip_ws_incl P (R : Z -> Prop) : Forall R P -> Forall R (skip_ws P).
Proof. intros F. destruct (skip_ws_split P) as (w & _ & E & _). rewrite E in F. apply Forall_app in F. apply F. Qed.
Lemma cut_found d P Q : Forall (fun c => c <> d) P -> cut_at d (P ++ d :: Q) = Some (P, Q).
Proof. induction 1 as [|c P H _ IH]; cbn [app cut_at]; [rewrite Z.eqb_refl; reflexivity|]. destruct (Z.eqb_spec c d); [contradiction|]. rewrite IH. reflexivity. Qed.
Lemma cut_none d P : Forall (fun c => c <> d) P -> cut_at d P = None.
Proof. induction 1 as [|c P H _ IH]; [reflexivity|]. cbn [cut_at]. destruct (Z.eqb_spec c d); [contradiction|]. rewrite IH. reflexivity. Qed.
Lemma no_dot_existsb P : existsb (Z.eqb 46) P = false <-> Forall (fun c => c <> 46) P.
Proof.
  induction P as [|c P IH]; cbn [existsb]; [split; [constructor|reflexivity]|]. rewrite orb_false_iff, IH. split.
  - intros [H F]. constructor; [intros ->; discriminate H|exact F].
  - intros F. inversion F as [|x l H F']. subst. split; [apply Z.eqb_neq; auto|exact F'].
Qed.
Lemma split_found d P Q sec : Forall (fun c => c <> d) P -> Forall (fun c => c <> 46) P -> splitField (P ++ d :: Q) d sec = Some (sec ++ trim P, trim Q).
Proof. intros F N. unfold splitField. rewrite cut_found by exact F. cbn [obind fst snd]. apply no_dot_existsb in N. rewrite N. reflexivity. Qed.
Lemma last_char (s : list Z) c : last s 0 = c -> c <> 0 -> exists r, s = r ++ [c].
Proof. intros H N. destruct s as [|x s]; [cbn in H; congruence|]. destruct (@exists_last _ (x :: s) ltac:(discriminate)) as (r & y & E). rewrite E in *. rewrite last_app in H. subst y. exists r. reflexivity. Qed.
Lemma last_not s c : c <> 0 -> (forall r, s <> r ++ [c]) -> Z.eqb (last s 0) c = false.
Proof. intros N H. apply Z.eqb_neq. intros E. destruct (last_char s c E N) as (r & Er). exact (H r Er). Qed.
Lemma not_section line : (forall r, line <> 91 :: r) -> isItSectionEntry line = Some false.
Proof.
  intros N. destruct line as [|c l]; [reflexivity|]. destruct (Z.eq_dec c 91) as [->|Nc]; [exfalso; exact (N l eq_refl)|].
  unfold isItSectionEntry. destruct c as [|q|q]; try reflexivity. repeat (destruct q; try reflexivity). contradiction Nc; reflexivity.
Qed.
Lemma last_two P d v : P ++ d :: v <> [] /\ last (P ++ d :: v) 0 = last (d :: v) 0.
Proof. split; [intros E; apply app_eq_nil in E; destruct E; discriminate|]. destruct (@exists_last _ (d :: v) ltac:(discriminate)) as (r & y & E). rewrite E, app_assoc, !last_app. reflexivity. Qed.

(** Finite maps. *)
Lemma lookup_set k v k' m : lookup k' (map_set k v m) = if text_eqb k' k then Some v else lookup k' m.
Proof.
  induction m as [|[k0 v0] m IH]; cbn [map_set lookup]; [reflexivity|]. destruct (text_ltb k k0); [reflexivity|]. destruct (text_eqb k k0) eqn:E.
  - apply text_eqb_eq in E. subst k0. cbn [lookup]. destruct (text_eqb k' k); reflexivity.
  - cbn [lookup]. rewrite IH. destruct (text_eqb k' k0) eqn:E1; [|reflexivity]. apply text_eqb_eq in E1. subst k0. destruct (text_eqb k' k) eqn:E2; [|reflexivity]. apply text_eqb_eq in E2. subst k'. rewrite text_eqb_refl in E. discriminate.
Qed.
Lemma member_iff k l : member k l = true <-> In k l.
Proof. unfold member. rewrite existsb_exists. split; [intros (x & H & E); apply text_eqb_eq in E; subst; exact H|intros H; exists k; split; [exact H|apply text_eqb_refl]]. Qed.
Lemma member_false k l : member k l = false <-> ~ In k l.
Proof. rewrite <- member_iff. destruct (member k l); split; congruence. Qed.
Lemma known_member k fs : known k fs = member k (map fst fs).
Proof. induction fs as [|[k' v] fs IH]; [reflexivity|]. cbn [known map member existsb fst]. rewrite IH. reflexivity. Qed.
Lemma replace_keys k v fs : map fst (replace_value k v fs) = map fst fs.
Proof. induction fs as [|[k' v'] fs IH]; [reflexivity|]. cbn [replace_value]. destruct (text_eqb k k') eqn:E; [apply text_eqb_eq in E; subst; reflexivity|]. cbn [map]. rewrite IH. reflexivity. Qed.
Lemma replace_in k v fs : NoDup (map fst fs) -> In k (map fst fs) -> forall k' v', In (k', v') (replace_value k v fs) <-> (k' = k /\ v' = v) \/ (k' <> k /\ In (k', v') fs).
Proof.
  induction fs as [|[k0 v0] fs IH]; intros D I k' v'; [destruct I|]. cbn [map fst] in D. inversion D as [|x l N D']. subst. cbn [replace_value]. destruct (text_eqb k k0) eqn:E.
  - apply text_eqb_eq in E. subst k0. cbn [In]. split.
    + intros [X|X]; [injection X as <- <-; auto|]. right. split; [intros ->; apply N; apply (in_map fst) in X; exact X|auto].
    + intros [[-> ->]|[X [Y|Y]]]; [auto| |auto]. injection Y as <- <-. contradiction X; reflexivity.
  - apply text_eqb_neq in E. destruct I as [I|I]; [symmetry in I; contradiction|]. cbn [In]. rewrite (IH D' I). split.
    + intros [X|[X|[X Y]]]; [injection X as <- <-; right; split; auto|auto|auto].
    + intros [X|[X [Y|Y]]]; auto.
Qed.

(** The state after some lines, for fields [fs]. *)
Definition stands (fs : list (list Z * list Z)) (sec : list Z) (p : parser) : Prop :=
  pa_keys p = map fst fs /\ NoDup (map fst fs) /\ (forall k v, lookup k (pa_map p) = Some v <-> In (k, v) fs) /\ pa_section p = sec.

Definition finish (delim : Z) (allow : bool) (p : parser) (line : list Z) : option parser :=
  s <- isItSectionEntry line ;;
  if s then Some (Parser (pa_map p) (pa_keys p) (removelast (tl line) ++ [46]) line false)
  else
    f <- splitField line delim (pa_section p) ;;
    if member (fst f) (pa_keys p) && negb allow then None
    else Some (Parser (map_set (fst f) (snd f) (pa_map p)) (if member (fst f) (pa_keys p) then pa_keys p else pa_keys p ++ [fst f]) (pa_section p) line false).
Definition so_far (p : parser) : list Z := if pa_continued p then pa_line p ++ [newline] else [].
Lemma line_whole d allow raw p s : no_comment s -> around s raw -> trim s <> [] -> (forall r, trim s <> r ++ [92]) -> parse_line d allow raw p = finish d allow p (so_far p ++ trim s).
Proof.
  intros N A H B. unfold parse_line. rewrite (partial_of s raw N A). cbv zeta. destruct (trim s) as [|c t] eqn:E; [contradiction H; reflexivity|]. rewrite (last_not (c :: t) 92) by (auto; discriminate). reflexivity.
Qed.
Lemma line_more d allow raw p s : no_comment s -> around s raw -> (exists r, trim s = r ++ [92]) ->
  parse_line d allow raw p = Some (Parser (pa_map p) (pa_keys p) (pa_section p) (so_far p ++ trim (removelast (trim s))) true).
Proof.
  intros N A (r & B). unfold parse_line. rewrite (partial_of s raw N A). cbv zeta. rewrite B, last_app. destruct (r ++ [92]) eqn:E; [destruct r; discriminate|]. reflexivity.
Qed.
Lemma line_blank d allow raw p : around [] raw -> parse_line d allow raw p = Some p.
Proof. intros A. unfold parse_line. rewrite (partial_of [] raw (Forall_nil _) A). reflexivity. Qed.
Lemma NoDup_snoc {A} (l : list A) x : NoDup l -> ~ In x l -> NoDup (l ++ [x]).
Proof. intros D N. apply (Permutation_NoDup (l := x :: l)); [apply Permutation_cons_append|constructor; auto]. Qed.
Definition put (allow : bool) (key value : list Z) (fs : list (list Z * list Z)) : option (list (list Z * list Z)) :=
  if known key fs then (if allow then Some (replace_value key value fs) else None) else Some (fs ++ [(key, value)]).
(** The state agrees with what the items mean. *)
Definition agrees (r : option parser) (m : option (list (list Z * list Z))) (sec : list Z) : Prop :=
  match m with None => r = None | Some fs => exists p, r = Some p /\ stands fs sec p /\ pa_continued p = false end.
Lemma finish_field d allow p P Q fs sec : stands fs sec p -> (forall r, P ++ d :: Q <> 91 :: r) -> Forall (fun c => c <> d) P -> Forall (fun c => c <> 46) P ->
  agrees (finish d allow p (P ++ d :: Q)) (put allow (sec ++ trim P) (trim Q) fs) sec.
Proof.
  intros (K & D & M & S) N F Nd. unfold finish. rewrite not_section by exact N. cbn [obind]. rewrite split_found by auto. cbn [obind fst snd]. rewrite S, K. set (key := sec ++ trim P). set (v := trim Q).
  unfold put. rewrite known_member. destruct (member key (map fst fs)) eqn:E; cbn [andb].
  - destruct allow; cbn [negb]; [|reflexivity]. eexists. split; [reflexivity|]. split; [|reflexivity]. apply member_iff in E.
    split; [cbn; rewrite replace_keys; reflexivity|]. split; [rewrite replace_keys; exact D|]. split; [|reflexivity]. intros k v'. cbn [pa_map]. rewrite lookup_set, replace_in by auto. destruct (text_eqb k key) eqn:Ek.
    + apply text_eqb_eq in Ek. subst k. split; [intros X; injection X as <-; auto|]. intros [[_ ->]|[X _]]; [reflexivity|contradiction X; reflexivity].
    + apply text_eqb_neq in Ek. rewrite M. tauto.
  - eexists. split; [reflexivity|]. split; [|reflexivity]. apply member_false in E. split; [cbn [pa_keys]; rewrite map_app; reflexivity|]. split; [rewrite map_app; apply NoDup_snoc; auto|]. split; [|reflexivity].
    intros k v'. cbn [pa_map]. rewrite lookup_set, in_app_iff. cbn [In]. destruct (text_eqb k key) eqn:Ek.
    + apply text_eqb_eq in Ek. subst k. split; [intros X; injection X as <-; auto|]. intros [X|[X|[]]]; [apply (in_map fst) in X; contradiction|injection X as <-; reflexivity].
    + apply text_eqb_neq in Ek. rewrite M. split; [auto|]. intros [X|[X|[]]]; [exact X|]. injection X as <- _. contradiction Ek; reflexivity.
Qed.

(** Lines of one item. *)
Lemma rest_nonempty vs ls : rest_of_value vs ls -> vs <> [].
Proof. induction 1; try discriminate. assumption. Qed.
Lemma rest_finish d allow vs ls : rest_of_value vs ls -> forall p, pa_continued p = true -> parse_lines d allow ls p = finish d allow p (pa_line p ++ newline :: joined newline vs).
Proof.
  induction 1 as [v l N T Ne B A|v w l vs ls N T W A R IH|vs l ls A R IH]; intros p C; cbn [parse_lines].
  - assert (E : trim v = v) by (rewrite <- (app_nil_r v) at 1; apply (trim_around [] v []); [constructor|exact T|constructor]).
    rewrite (line_whole d allow l p v) by (auto; rewrite E; auto; intros r Er; apply B; exists r; exact Er). rewrite E. unfold so_far. rewrite C, <- app_assoc. cbn [app joined].
    destruct (finish d allow p (pa_line p ++ newline :: v)); reflexivity.
  - assert (E : trim (v ++ w ++ [92]) = skip_ws (v ++ w) ++ [92]) by (rewrite app_assoc; apply (trim_two (v ++ w) 92 []); reflexivity).
    rewrite (line_more d allow l p (v ++ w ++ [92])); [| |exact A|eexists; exact E].
    + cbn [obind]. rewrite IH by reflexivity. rewrite E, removelast_last, trim_skip, (trim_right v w T (blank_spaces w W)). unfold finish, so_far. rewrite C. cbn [pa_line pa_map pa_keys pa_section].
      pose proof (rest_nonempty vs ls R) as H. replace (joined newline (v :: vs)) with (v ++ newline :: joined newline vs) by (destruct vs; [contradiction H; reflexivity|reflexivity]). rewrite <- !app_assoc. reflexivity.
    + apply Forall_app. split; [exact N|]. apply Forall_app. split; [apply blank_clean, W|]. constructor; [|constructor]. unfold newline. lia.
  - rewrite line_blank by exact A. cbn [obind]. apply IH. exact C.
Qed.
Lemma rest_lines vs ls : rest_of_value vs ls -> Forall (Forall (fun c => c <> newline)) ls.
Proof.
  induction 1 as [v l N T Ne B A|v w l vs ls N T W A R IH|vs l ls A R IH].
  - constructor; [eapply around_line; eauto|constructor].
  - constructor; [|exact IH]. eapply around_line; [|exact A]. apply Forall_app. split; [exact N|]. apply Forall_app. split; [apply blank_clean, W|]. constructor; [|constructor]. unfold newline. lia.
  - constructor; [|exact IH]. eapply around_line; [|exact A]. constructor.
Qed.
Lemma skip_idem P : skip_ws (skip_ws P) = skip_ws P.
Proof. destruct (skip_ws_split P) as (w & _ & _ & H). apply skip_none. exact H. Qed.
Lemma key_part d k w : clean_delimiter d -> clean_key d k -> blank w ->
  trim (skip_ws (k ++ w)) = k /\ Forall (fun c => c <> d) (skip_ws (k ++ w)) /\ Forall (fun c => c <> 46) (skip_ws (k ++ w)) /\ (forall Q r, skip_ws (k ++ w) ++ d :: Q <> 91 :: r).
Proof.
  intros (D1 & D2 & D3 & D4 & D5 & D6) (N & T & F & H) W. split; [rewrite trim_skip; exact (trim_around [] k w (Forall_nil _) T (blank_spaces w W))|]. split; [|split].
  - apply skip_ws_incl, Forall_app. split; [eapply Forall_impl; [|exact F]; intros c Hc; apply Hc|]. eapply Forall_impl; [|exact (blank_spaces w W)]. intros c Hc ->. cbn beta in Hc. congruence.
  - apply skip_ws_incl, Forall_app. split; [eapply Forall_impl; [|exact F]; intros c Hc; apply Hc|]. apply spaces_no_dot, blank_spaces, W.
  - intros Q r. destruct k as [|c k].
    + cbn [app]. rewrite <- (app_nil_r w), (skip_spaces w []) by (apply blank_spaces, W). cbn. intros E. injection E as E _. contradiction.
    + rewrite skip_none; [|intros x y E; injection E as <- _; exact (proj1 T c k eq_refl)]. cbn [app]. intros E. injection E as E _. subst c. eapply H. reflexivity.
Qed.
Lemma key_clean d k w : clean_key d k -> blank w -> no_comment (k ++ w). Proof. intros (N & _) W. apply Forall_app. split; [exact N|apply blank_clean, W]. Qed.
Lemma code_clean c : c <> 59 -> c <> 35 -> c <> newline -> no_comment [c]. Proof. intros. constructor; [auto|constructor]. Qed.
Lemma delimiter_clean d : clean_delimiter d -> no_comment [d].
Proof. intros (D1 & D2 & D3 & _). apply code_clean; auto. intros ->. discriminate D1. Qed.
Lemma rtrim_value w v w' : spaces w -> trimmed v -> spaces w' -> rtrim (w ++ v ++ w') = match v with [] => [] | _ => w ++ v end.
Proof.
  intros W T W'. rewrite app_assoc, rtrim_spaces by exact W'. destruct v as [|c v].
  - rewrite app_nil_r. rewrite <- (app_nil_l w). apply (rtrim_spaces [] w W).
  - apply rtrim_none. intros x r E. destruct (@exists_last _ (c :: v) ltac:(discriminate)) as (v' & y & Ev). rewrite Ev in E. rewrite app_assoc in E. apply app_inj_tail in E. destruct E as [_ <-]. exact (proj2 T y v' Ev).
Qed.
Lemma trim_id v : trimmed v -> trim v = v. Proof. intros T. rewrite <- (app_nil_r v) at 1. exact (trim_around [] v [] (Forall_nil _) T (Forall_nil _)). Qed.
Lemma content_more d k w w' v w'' : clean_delimiter d -> clean_key d k -> blank w -> blank w' -> blank w'' -> no_comment v -> no_comment (k ++ w ++ [d] ++ w' ++ v ++ w'' ++ [92]).
Proof.
  intros D K W W' W'' N. rewrite app_assoc. repeat (apply Forall_app; split); try (apply (key_clean d)); auto; try (apply blank_clean; assumption); [apply K|apply delimiter_clean, D|].
  apply code_clean; [discriminate|discriminate|unfold newline; discriminate].
Qed.

Lemma meaning_cons allow i is sec fs :
  meaning allow (i :: is) sec fs =
  match i with
  | ISection n => meaning allow is (n ++ [46]) fs
  | IField k vs => fs' <- put allow (sec ++ k) (trim (joined newline vs)) fs ;; meaning allow is sec fs'
  | IBroken => None
  end.
Proof. destruct i; try reflexivity. cbn [meaning]. unfold put. destruct (known _ fs); [destruct allow|]; reflexivity. Qed.
Lemma single d allow l p : parse_lines d allow [l] p = parse_line d allow l p.
Proof. cbn [parse_lines]. destruct (parse_line d allow l p); reflexivity. Qed.
Lemma says_section d allow n ls p fs sec : says d (ISection n) ls -> stands fs sec p -> pa_continued p = false -> agrees (parse_lines d allow ls p) (Some fs) (n ++ [46]).
Proof.
  intros Sy St C. inversion Sy as [n' l N A| | | | |]. subst. rewrite single. assert (E : trim (91 :: n ++ [93]) = 91 :: n ++ [93]).
  { apply trim_id. split; [intros c r E; injection E as <- _; reflexivity|]. intros c r E. change (91 :: n ++ [93]) with ((91 :: n) ++ [93]) in E. apply app_inj_tail in E. destruct E as [_ <-]. reflexivity. }
  rewrite (line_whole d allow l p (91 :: n ++ [93])); [| |exact A|rewrite E; discriminate|].
  - rewrite E. unfold so_far. rewrite C. cbn [app]. unfold finish, isItSectionEntry. change (91 :: n ++ [93]) with ((91 :: n) ++ [93]). rewrite last_app. cbn [Z.eqb Pos.eqb obind]. cbn [app tl]. rewrite removelast_last.
    eexists. split; [reflexivity|]. split; [|reflexivity]. destruct St as (K & D & M & S). split; [exact K|]. split; [exact D|]. split; [exact M|reflexivity].
  - change (91 :: n ++ [93]) with ([91] ++ n ++ [93]). apply Forall_app. split; [apply code_clean; unfold newline; discriminate|]. apply Forall_app. split; [exact N|apply code_clean; unfold newline; discriminate].
  - rewrite E. intros r Er. change (91 :: n ++ [93]) with ((91 :: n) ++ [93]) in Er. apply app_inj_tail in Er. destruct Er as [_ X]. discriminate.
Qed.
Lemma says_field d allow k vs ls p fs sec : clean_delimiter d -> says d (IField k vs) ls -> stands fs sec p -> pa_continued p = false ->
  agrees (parse_lines d allow ls p) (put allow (sec ++ k) (trim (joined newline vs)) fs) sec.
Proof.
  intros D Sy St C. inversion Sy as [|k' w w' v l K W W' N T B A|k' w w' v w'' l vs' ls' K W W' W'' N T A R| | |]; subst.
  - rewrite single. destruct (key_part d k w D K W) as (E1 & E2 & E3 & E4). assert (E : trim (k ++ w ++ [d] ++ w' ++ v) = skip_ws (k ++ w) ++ d :: rtrim (w' ++ v)) by (rewrite app_assoc; apply trim_two; apply D).
    assert (Ev : rtrim (w' ++ v) = match v with [] => [] | _ => w' ++ v end) by (rewrite <- (app_nil_r v) at 1; apply rtrim_value; [apply W'|exact T|constructor]).
    rewrite (line_whole d allow l p (k ++ w ++ [d] ++ w' ++ v)); [| |exact A|rewrite E; apply last_two|].
    + rewrite E. unfold so_far. rewrite C. cbn [app joined]. replace k with (trim (skip_ws (k ++ w))) at 2 by exact E1. replace (trim v) with (trim (rtrim (w' ++ v))).
      * apply finish_field; auto.
      * rewrite Ev. destruct v as [|c v]; [reflexivity|]. rewrite <- (app_nil_r (w' ++ c :: v)), <- app_assoc. apply trim_outer; [apply W'|constructor].
    + rewrite app_assoc. apply Forall_app. split; [apply (key_clean d); auto|]. apply Forall_app. split; [apply delimiter_clean, D|]. apply Forall_app. split; [apply blank_clean, W'|exact N].
    + rewrite E, Ev. intros r Er. destruct v as [|c v].
      * apply app_inj_tail in Er. destruct Er as [_ X]. subst d. apply (proj2 (proj2 (proj2 (proj2 (proj2 D))))). reflexivity.
      * destruct (@exists_last _ (c :: v) ltac:(discriminate)) as (v' & y & Ey). rewrite Ey in Er. change (d :: w' ++ v' ++ [y]) with ((d :: w') ++ v' ++ [y]) in Er. rewrite !app_assoc in Er. apply app_inj_tail in Er. destruct Er as [_ ->]. apply B. exists v'. exact Ey.
  - destruct (key_part d k w D K W) as (E1 & E2 & E3 & E4). cbn [parse_lines].
    assert (E : trim (k ++ w ++ [d] ++ w' ++ v ++ w'' ++ [92]) = (skip_ws (k ++ w) ++ d :: (w' ++ v ++ w'')) ++ [92]).
    { rewrite app_assoc. change ([d] ++ w' ++ v ++ w'' ++ [92]) with (d :: w' ++ v ++ w'' ++ [92]). rewrite trim_two by apply D. rewrite rtrim_none; [rewrite <- !app_assoc; cbn [app]; rewrite <- !app_assoc; reflexivity|]. intros c r Er. rewrite !app_assoc in Er. apply app_inj_tail in Er. destruct Er as [_ <-]. reflexivity. }
    rewrite (line_more d allow l p (k ++ w ++ [d] ++ w' ++ v ++ w'' ++ [92])); [|apply content_more; auto|exact A|eexists; exact E].
    cbn [obind]. rewrite (rest_finish d allow vs' ls' R) by reflexivity. rewrite E, removelast_last, trim_two, skip_idem by apply D. cbn [pa_line]. unfold so_far. rewrite C. cbn [app]. rewrite <- app_assoc. cbn [app].
    replace (trim (joined newline (v :: vs'))) with (trim (rtrim (w' ++ v ++ w'') ++ newline :: joined newline vs')).
    + match goal with |- agrees (finish _ _ ?q (_ ++ d :: ?Q)) _ _ => pose proof (finish_field d allow q (skip_ws (k ++ w)) Q fs sec) as X end. rewrite E1 in X. apply X; auto.
    + pose proof (rest_nonempty vs' ls' R) as Nv. replace (joined newline (v :: vs')) with (v ++ newline :: joined newline vs') by (destruct vs'; [contradiction Nv; reflexivity|reflexivity]). rewrite rtrim_value by (auto; apply blank_spaces; assumption).
      destruct v as [|c v]; [reflexivity|]. rewrite <- app_assoc. rewrite <- (app_nil_r ((c :: v) ++ newline :: joined newline vs')) at 1. apply trim_outer; [apply W'|constructor].
Qed.
Lemma says_broken d allow ls p fs sec : clean_delimiter d -> says d IBroken ls -> stands fs sec p -> pa_continued p = false -> parse_lines d allow ls p = None.
Proof.
  intros D Sy St C. inversion Sy as [| | |t l N T Ne B F H A|a b v l N F H Nv T B A|t l N T B H A]; subst; rewrite single.
  - rewrite (line_whole d allow l p t) by (auto; rewrite (trim_id t T); auto; intros r E; apply B; exists r; exact E). rewrite (trim_id t T). unfold so_far. rewrite C. cbn [app]. unfold finish. rewrite not_section by exact H. cbn [obind]. unfold splitField. rewrite cut_none by exact F. reflexivity.
  - assert (E : trim ((a ++ 46 :: b) ++ d :: v) = (a ++ 46 :: b) ++ d :: v).
    { rewrite trim_two by apply D. rewrite skip_none; [rewrite rtrim_none; [reflexivity|apply T]|]. intros c r E. destruct a as [|x a]; [injection E as <- _; reflexivity|]. injection E as <- _. apply (H x (a ++ [46])). reflexivity. }
    rewrite (line_whole d allow l p ((a ++ 46 :: b) ++ d :: v)); [| |exact A|rewrite E; apply last_two|].
    + rewrite E. unfold so_far. rewrite C. cbn [app]. unfold finish. rewrite not_section.
      * cbn [obind]. unfold splitField. rewrite cut_found by exact F. cbn [obind fst]. destruct (existsb (Z.eqb 46) (a ++ 46 :: b)) eqn:Ee; [reflexivity|]. apply no_dot_existsb in Ee. apply Forall_app in Ee. destruct Ee as [_ Ee]. apply Forall_inv in Ee. contradiction Ee; reflexivity.
      * intros r Er. destruct a as [|x a]; [discriminate|]. injection Er as -> _. apply (proj2 (H 91 (a ++ [46]) eq_refl)). reflexivity.
    + apply Forall_app. split; [exact N|]. change (d :: v) with ([d] ++ v). apply Forall_app. split; [apply delimiter_clean, D|exact Nv].
    + rewrite E. intros r Er. destruct v as [|c v].
      * apply app_inj_tail in Er. destruct Er as [_ X]. subst d. apply (proj2 (proj2 (proj2 (proj2 (proj2 D))))). reflexivity.
      * destruct (@exists_last _ (c :: v) ltac:(discriminate)) as (v' & y & Ey). rewrite Ey in Er. change (d :: v' ++ [y]) with ((d :: v') ++ [y]) in Er. rewrite app_assoc in Er. apply app_inj_tail in Er. destruct Er as [_ ->]. apply B. exists v'. exact Ey.
  - rewrite (line_whole d allow l p (91 :: t)); [| |exact A|rewrite (trim_id _ T); discriminate|].
    + rewrite (trim_id _ T). unfold so_far. rewrite C. cbn [app]. unfold finish, isItSectionEntry. rewrite (last_not (91 :: t) 93); [reflexivity|discriminate|]. intros r E. destruct r as [|x r]; [discriminate|]. injection E as _ E. exact (H r E).
    + change (91 :: t) with ([91] ++ t). apply Forall_app. split; [apply code_clean; unfold newline; discriminate|exact N].
    + rewrite (trim_id _ T). intros r E. destruct r as [|x r]; [discriminate|]. injection E as _ E. apply B. exists r. exact E.
Qed.
Lemma parse_lines_app d allow ls : forall ls' p, parse_lines d allow (ls ++ ls') p = obind (parse_lines d allow ls p) (parse_lines d allow ls').
Proof. induction ls as [|l ls IH]; intros ls' p; [reflexivity|]. cbn [app parse_lines]. destruct (parse_line d allow l p); [apply IH|reflexivity]. Qed.
Lemma file_agrees d allow is ls : clean_delimiter d -> file d is ls -> forall p fs sec, stands fs sec p -> pa_continued p = false -> exists sec', agrees (parse_lines d allow ls p) (meaning allow is sec fs) sec'.
Proof.
  intros D F. induction F as [|l is ls A F IH|i ls is ls' Sy F IH]; intros p fs sec St C.
  - exists sec. exists p. auto.
  - cbn [parse_lines]. rewrite line_blank by exact A. cbn [obind]. apply IH; auto.
  - rewrite parse_lines_app, meaning_cons. destruct i as [n|k vs|].
    + destruct (says_section d allow n ls p fs sec Sy St C) as (p' & E & St' & C'). rewrite E. cbn [obind]. apply IH; auto.
    + pose proof (says_field d allow k vs ls p fs sec D Sy St C) as H. destruct (put allow (sec ++ k) (trim (joined newline vs)) fs) as [fs'|].
      * destruct H as (p' & E & St' & C'). rewrite E. cbn [obind]. apply IH; auto.
      * cbn [agrees] in H. rewrite H. exists sec. reflexivity.
    + rewrite (says_broken d allow ls p fs sec D Sy St C). exists sec. reflexivity.
Qed.
Lemma says_lines d i ls : clean_delimiter d -> says d i ls -> Forall (Forall (fun c => c <> newline)) ls.
Proof.
  intros D Sy. inversion Sy as [n' l N A|k' w w' v l K W W' N T B A|k' w w' v w'' l vs' ls' K W W' W'' N T A R|t l N T Ne B F H A|a b v l N F H Nv T B A|t l N T B H A]; subst;
  (constructor; [eapply around_line; [|exact A]|try constructor]).
  - change (91 :: n' ++ [93]) with ([91] ++ n' ++ [93]). apply Forall_app. split; [apply code_clean; unfold newline; discriminate|]. apply Forall_app. split; [exact N|apply code_clean; unfold newline; discriminate].
  - rewrite app_assoc. apply Forall_app. split; [apply (key_clean d); auto|]. apply Forall_app. split; [apply delimiter_clean, D|]. apply Forall_app. split; [apply blank_clean, W'|exact N].
  - apply content_more; auto.
  - eapply rest_lines; exact R.
  - exact N.
  - apply Forall_app. split; [exact N|]. change (d :: v) with ([d] ++ v). apply Forall_app. split; [apply delimiter_clean, D|exact Nv].
  - change (91 :: t) with ([91] ++ t). apply Forall_app. split; [apply code_clean; unfold newline; discriminate|exact N].
Qed.
Lemma file_lines d is ls : clean_delimiter d -> file d is ls -> Forall (Forall (fun c => c <> newline)) ls.
Proof.
  intros D F. induction F as [|l is ls A F IH|i ls is ls' Sy F IH]; [constructor|constructor; [eapply around_line; [|exact A]; constructor|exact IH]|].
  apply Forall_app. split; [eapply says_lines; eauto|exact IH].
Qed.
Lemma getlines_text ls t : Forall (Forall (fun c => c <> newline)) ls -> text_of ls t -> getlines newline t = ls.
Proof.
  intros F [->|[N ->]].
  - induction F as [|l ls H F IH]; [reflexivity|]. cbn [flat_map]. rewrite <- app_assoc. cbn [app]. rewrite getlines_piece by exact H. rewrite IH. reflexivity.
  - rewrite getlines_pieces; [|exact F|intros ->; apply N; reflexivity]. destruct (last ls []); [contradiction N; reflexivity|reflexivity].
Qed.
