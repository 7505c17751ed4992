From Coq Require Import ZArith List Bool Lia.
From Verif Require Import OptModel TextModel TextProofs RamsnapModel RamsnapSpec RamsnapProofs RamsnapFinalProofs LoadModel LoadSpec LoadProofs.
Import ListNotations.
Open Scope Z_scope.

Section load.
Context {D : Type} (show : D -> text) (scan : text -> option (D * text)) (zero : D) (hasVolume : list D -> bool) (accepts : list D -> list (list D * list D) -> bool).
Notation load := (loadPacking D scan zero hasVolume accepts).
Notation stored := (stored scan zero hasVolume accepts).

Lemma restored files r p : stored files r p <-> restorePacking D scan zero hasVolume accepts files r = Done p.
Proof.
  unfold restorePacking, restore, LoadSpec.stored. split.
  - intros (name & content & A & B & C & E). rewrite A, B, C, E. destruct p as [m [b s]]. reflexivity.
  - destruct (run_out r) as [name|]; [|discriminate]. destruct (files name) as [content|] eqn:F; [|discriminate].
    destruct (read D scan zero hasVolume content) as [[[m b] s]|] eqn:R; [|discriminate]. destruct (accepts b s) eqn:A; [|discriminate].
    intros H. injection H; intros; subst. exists name, content. auto.
Qed.
Lemma not_restored files r : proper_run r -> (forall p, ~ stored files r p) -> exists why, restorePacking D scan zero hasVolume accepts files r = Refused why.
Proof.
  intros [[name E] _] N. destruct (restorePacking D scan zero hasVolume accepts files r) as [p|w|] eqn:R; [|eauto|].
  - exfalso. apply (N p). apply restored. exact R.
  - exfalso. unfold restorePacking in R. rewrite E in R. destruct (files name) as [t|]; [destruct (restore D scan zero hasVolume accepts t)|]; discriminate.
Qed.
Lemma restored_cycles files r p n : stored files r p -> (performed_cycles files r n <-> exists v tail, map_find cycles_key (fst p) = Some v /\ extract_size v = Some (n, tail)).
Proof.
  intros (name & content & A & B & C & _). unfold read in C. destruct (restoreAuxInfo content) as [[m rest]|] eqn:R; [|discriminate]. cbn [obind] in C.
  assert (M : fst p = m).
  { destruct (restoreBox D scan zero hasVolume (snd (m, rest))) as [b|]; [|discriminate]. cbn [obind] in C.
    destruct (restoreShapes D scan (snd b)) as [s|]; [|discriminate]. cbn [obind fst snd] in C. congruence. }
  rewrite M. pose proof (aux_ordered _ _ _ R) as O. clear M C. split.
  - intros (name' & content' & m' & rest' & v & tail & A1 & A2 & A3 & A4 & A5).
    assert (name' = name) by congruence. subst name'. assert (content' = content) by congruence. subst content'. assert (m' = m) by congruence. subst m'.
    exists v, tail. split; [|auto]. apply (find_In _ _ _ O). exact A4.
  - intros (v & tail & V & S). exists name, content, m, rest, v, tail. rewrite (find_In _ _ _ O) in V. auto.
Qed.

Lemma auto_is : text_eqb auto_name auto_name = true. Proof. reflexivity. Qed.
Lemma load_refused files cont runs : Forall proper_run runs -> (exists r, In r runs /\ unreadable files r) -> exists why, load files (Some auto_name) cont runs = Refused why.
Proof. intros F U. destruct (auto_refused files runs F U) as [w E]. exists w. unfold loadPacking, findStartRunIndex. rewrite auto_is, E. reflexivity. Qed.
Lemma load_finished files cont runs : runs <> [] -> Forall proper_run runs -> (forall r, In r runs -> finished files r) ->
  load files (Some auto_name) cont runs = Done (Loaded D (length runs) 0 false None true runs).
Proof. intros NE F A. unfold loadPacking, findStartRunIndex. rewrite auto_is, (auto_finished files runs NE F A). reflexivity. Qed.

Definition has_file (files : fs) (q : run) : bool := match run_out q with Some n => match files n with Some _ => true | None => false end | None => false end.
Lemma has_file_false files q : proper_run q -> (has_file files q = false <-> not_performed files q).
Proof.
  intros [[name E] _]. unfold has_file, not_performed. rewrite E. destruct (files name) eqn:F; split; try discriminate; auto.
  - intros (n & A & B). congruence.
  - intros _. exists name. auto.
Qed.
Lemma later_none files runs i : Forall proper_run runs -> (existsb (has_file files) (skipn (S i) runs) = false <-> forall j q, (i < j)%nat -> nth_error runs j = Some q -> not_performed files q).
Proof.
  intros F. rewrite Forall_forall in F. split.
  - intros E j q Hj Hq. apply (has_file_false files q (F q (nth_error_In _ _ Hq))). destruct (has_file files q) eqn:H; [|reflexivity].
    assert (X : existsb (has_file files) (skipn (S i) runs) = true); [|congruence]. apply existsb_exists. exists q. split; [|exact H]. apply in_skip. exists j. split; [lia|exact Hq].
  - intros H. destruct (existsb (has_file files) (skipn (S i) runs)) eqn:E; [|reflexivity]. apply existsb_exists in E. destruct E as (q & Hq & Eq).
    apply in_skip in Hq. destruct Hq as (j & Hj & Hq). pose proof (H j q ltac:(lia) Hq) as X. apply (has_file_false files q (F q (nth_error_In _ _ Hq))) in X. congruence.
Qed.
Lemma load_later files cont runs i r j q : runs <> [] -> Forall proper_run runs -> (forall q, In q runs -> ~ unreadable files q) -> first_unfinished files runs i r ->
  (i < j)%nat -> nth_error runs j = Some q -> ~ not_performed files q -> exists why, load files (Some auto_name) cont runs = Refused why.
Proof.
  intros NE F U FU Hj Hq N. exists PerformedAfterUnfinished. unfold loadPacking, findStartRunIndex. rewrite auto_is, (auto_found files runs i r NE F U FU).
  fold (has_file files). destruct (existsb (has_file files) (skipn (S i) runs)) eqn:E; [reflexivity|]. exfalso. apply N. exact (proj1 (later_none files runs i F) E j q Hj Hq).
Qed.

Lemma found_fresh files runs i r : runs <> [] -> Forall proper_run runs -> (forall q, In q runs -> ~ unreadable files q) -> first_unfinished files runs i r ->
  (forall j q, (i < j)%nat -> nth_error runs j = Some q -> not_performed files q) -> (not_performed files r \/ performed_cycles files r 0) ->
  autoFindStartRunIndex files runs = Done (Found i None false).
Proof.
  intros NE F U FU L Z. rewrite (auto_found files runs i r NE F U FU). fold (has_file files). rewrite (proj2 (later_none files runs i F) L). do 2 f_equal.
  assert (P : proper_run r) by (rewrite Forall_forall in F; apply F; exact (nth_error_In _ _ (proj1 FU))).
  destruct (data_cases files r P) as [(d & Ed & Hd)|[H _]]; [|exfalso; exact (U r (nth_error_In _ _ (proj1 FU)) H)].
  rewrite Ed. destruct Hd as [Hm|n Hn]; [reflexivity|]. cbn [pd_done]. destruct Z as [(name & A & B)|Z]; [destruct Hn as (name' & content & m & rest & v & tail & A1 & A2 & _); congruence|].
  rewrite (cycles_unique _ _ _ _ Hn Z). reflexivity.
Qed.
Lemma found_continue files runs i r n : runs <> [] -> Forall proper_run runs -> (forall q, In q runs -> ~ unreadable files q) -> first_unfinished files runs i r ->
  (forall j q, (i < j)%nat -> nth_error runs j = Some q -> not_performed files q) -> performed_cycles files r n -> 0 < n ->
  autoFindStartRunIndex files runs = Done (Found i (Some 0) false).
Proof.
  intros NE F U FU L Z N. rewrite (auto_found files runs i r NE F U FU). fold (has_file files). rewrite (proj2 (later_none files runs i F) L).
  assert (P : proper_run r) by (rewrite Forall_forall in F; apply F; exact (nth_error_In _ _ (proj1 FU))).
  destruct (data_cases files r P) as [(d & Ed & Hd)|[H _]]; [|exfalso; exact (U r (nth_error_In _ _ (proj1 FU)) H)]. rewrite Ed. destruct Hd as [(name & A & B)|n' Hn].
  - destruct Z as (name' & content & m & rest & v & tail & A1 & A2 & _). congruence.
  - cbn [pd_done]. rewrite (cycles_unique _ _ _ _ Hn Z). destruct (Z.eqb_spec n 0); [lia|reflexivity].
Qed.

Lemma load_scratch files cont runs r : Forall proper_run runs -> (forall q, In q runs -> ~ unreadable files q) -> first_unfinished files runs 0 r ->
  (forall j q, (0 < j)%nat -> nth_error runs j = Some q -> not_performed files q) -> (not_performed files r \/ performed_cycles files r 0) ->
  load files (Some auto_name) cont runs = Done (Loaded D 0 0 false None false runs).
Proof.
  intros F U FU L Z. assert (NE : runs <> []) by (intros ->; destruct FU as [FU _]; discriminate).
  unfold loadPacking, findStartRunIndex. rewrite auto_is, (found_fresh files runs 0 r NE F U FU L Z). reflexivity.
Qed.
Lemma load_previous files cont runs i r q : Forall proper_run runs -> (forall q, In q runs -> ~ unreadable files q) -> first_unfinished files runs (S i) r ->
  (forall j q, (S i < j)%nat -> nth_error runs j = Some q -> not_performed files q) -> (not_performed files r \/ performed_cycles files r 0) -> nth_error runs i = Some q ->
  (forall p, stored files q p -> load files (Some auto_name) cont runs = Done (Loaded D (S i) 0 false (Some p) false runs)) /\
  ((forall p, ~ stored files q p) -> exists why, load files (Some auto_name) cont runs = Refused why).
Proof.
  intros F U FU L Z Hq. assert (NE : runs <> []) by (intros ->; destruct FU as [FU _]; discriminate).
  unfold loadPacking, findStartRunIndex. rewrite auto_is, (found_fresh files runs (S i) r NE F U FU L Z). cbn [bind fd_finished fd_index fd_continuation Nat.eqb andb].
  unfold loadPackingNoContinuation. cbn [Nat.sub]. rewrite Nat.sub_0_r, Hq. split.
  - intros p Hp. apply restored in Hp. rewrite Hp. reflexivity.
  - intros N. rewrite Forall_forall in F. destruct (not_restored files q (F q (nth_error_In _ _ Hq)) N) as [w E]. exists w. rewrite E. reflexivity.
Qed.

Lemma replace_nth_at {A} i (x y : A) l : nth_error l i = Some y -> replace_nth i x l = firstn i l ++ x :: skipn (S i) l.
Proof.
  intros H. unfold replace_nth. f_equal. revert i H. induction l as [|z l IH]; intros [|i] H; cbn [nth_error skipn] in *; try discriminate; [reflexivity|]. rewrite (IH i H). reflexivity.
Qed.
Lemma set_with r c n : run_cycles r = Some c -> with_thermalisation (value_or0 n) r (set_thermalization r n).
Proof. intros E. unfold with_thermalisation, set_thermalization, thermalisation, averaging. rewrite E. cbn. auto 8. Qed.

(** The run is continued up to [target] cycles of thermalisation. *)
Definition target (cont : Z) (r : run) : Z := if cont =? 0 then thermalisation r else cont.
Lemma continued files cont i runs r n p : nth_error runs i = Some r -> run_cycles r <> None -> stored files r p -> performed_cycles files r n ->
  0 <= averaging r ->
  loadPackingContinuation D scan zero hasVolume accepts files cont i runs =
    let runs' t := firstn i runs ++ set_thermalization r t :: skipn (S i) runs in
    if target cont r <=? n then
      if 0 <? averaging r then Done (Loaded D i n true (Some p) false (runs' None))
      else Done (Loaded D (S i) 0 false (Some p) (Nat.eqb (S i) (length runs)) (runs' None))
    else Done (Loaded D i n true (Some p) false (runs' (Some (target cont r - n)))).
Proof.
  intros Hi K Hp Hn _. unfold loadPackingContinuation. rewrite Hi. rewrite (proj1 (restored _ _ _) Hp). cbn [bind].
  apply (restored_cycles _ _ _ _ Hp) in Hn. destruct Hn as (v & tail & V & S). unfold packing in *. rewrite V. unfold stoul. rewrite S. cbn [option_map fst].
  unfold target, thermalisation, averaging. destruct (run_cycles r) as [c|]; [|congruence]. rewrite !(replace_nth_at i _ r runs Hi). reflexivity.
Qed.
Lemma relaxation_finished files r n : run_cycles r = None -> performed_cycles files r n -> finished files r.
Proof. intros E H. exists n. split; [exact H|]. unfold thermalisation, averaging. rewrite E. pose proof (cycles_range _ _ _ H). lia. Qed.

Lemma load_continue files cont runs i r n : Forall proper_run runs -> (forall q, In q runs -> ~ unreadable files q) -> first_unfinished files runs i r ->
  (forall j q, (i < j)%nat -> nth_error runs j = Some q -> not_performed files q) -> performed_cycles files r n -> 0 < n ->
  (forall p, stored files r p -> exists r', with_thermalisation (Z.max 0 (thermalisation r - n)) r r' /\
     load files (Some auto_name) cont runs = Done (Loaded D i n true (Some p) false (firstn i runs ++ r' :: skipn (S i) runs))) /\
  ((forall p, ~ stored files r p) -> exists why, load files (Some auto_name) cont runs = Refused why).
Proof.
  intros F U FU L Hn N. assert (NE : runs <> []) by (intros ->; destruct FU as [FU _]; destruct i; discriminate).
  unfold loadPacking, findStartRunIndex. rewrite auto_is, (found_continue files runs i r n NE F U FU L Hn N). cbn [bind fd_finished fd_index fd_continuation].
  rewrite andb_false_r. destruct FU as (Hi & NF & _). rewrite Forall_forall in F. pose proof (F r (nth_error_In _ _ Hi)) as P. split.
  - intros p Hp. assert (K : run_cycles r <> None) by (intros K; apply NF; exact (relaxation_finished _ _ _ K Hn)).
    destruct P as (_ & P1 & P2 & P3 & P4). rewrite (continued files 0 i runs r n p Hi K Hp Hn P2). unfold target. cbn [Z.eqb].
    assert (LT : n < thermalisation r + averaging r) by (destruct (Z_lt_le_dec n (thermalisation r + averaging r)); [auto|exfalso; apply NF; exists n; auto]).
    destruct (run_cycles r) as [c|] eqn:E; [|congruence]. destruct (Z.leb_spec (thermalisation r) n).
    + destruct (Z.ltb_spec 0 (averaging r)); [|lia]. eexists. split; [|reflexivity]. rewrite Z.max_l by lia. exact (set_with r c None E).
    + eexists. split; [|reflexivity]. rewrite Z.max_r by lia. exact (set_with r c (Some (thermalisation r - n)) E).
  - intros NS. destruct (not_restored files r P NS) as [w E]. exists w. unfold loadPackingContinuation. rewrite Hi, E. reflexivity.
Qed.

(** Starting from a run given by its name. *)
Lemma named_index name runs i r : name <> first_name -> name <> last_name -> NoDup (map run_name runs) -> nth_error runs i = Some r -> run_name r = name -> findRunIndex name runs = Done i.
Proof.
  intros N1 N2 ND Hi E. unfold findRunIndex. apply text_eqb_neq in N1, N2. rewrite N1, N2.
  rewrite (find_index_at (fun q => text_eqb (run_name q) name) runs i r Hi).
  - destruct (Nat.ltb_spec i (length runs)); [reflexivity|]. pose proof (proj2 (nth_error_None runs i) H). congruence.
  - rewrite E. apply text_eqb_refl.
  - intros j y Hj Hy. apply text_eqb_neq. intros Ey. assert (X : nth_error (map run_name runs) j = nth_error (map run_name runs) i).
    { rewrite (map_nth_error run_name _ _ Hy), (map_nth_error run_name _ _ Hi). congruence. }
    assert (j = i); [|lia]. rewrite NoDup_nth_error in ND. apply ND; [|exact X]. apply nth_error_Some. rewrite (map_nth_error run_name _ _ Hy). discriminate.
Qed.
Lemma unknown_name name runs : name <> first_name -> name <> last_name -> (forall r, In r runs -> run_name r <> name) -> findRunIndex name runs = Refused NoSuchRun.
Proof.
  intros N1 N2 A. unfold findRunIndex. apply text_eqb_neq in N1, N2. rewrite N1, N2.
  destruct (find_index_spec (fun r => text_eqb (run_name r) name) runs) as [_ I].
  destruct (nth_error runs (find_index (fun r => text_eqb (run_name r) name) runs)) as [r|] eqn:E.
  - exfalso. apply (A r (nth_error_In _ _ E)). apply text_eqb_eq. exact I.
  - rewrite I, Nat.ltb_irrefl. reflexivity.
Qed.
Lemma named_is_index (files : fs) name cont runs i : name <> auto_name -> findRunIndex name runs = Done i -> load files (Some name) cont runs =
  match cont with
  | Some n => loadPackingContinuation D scan zero hasVolume accepts files n i runs
  | None => if Nat.eqb i 0 then Done (Loaded D i 0 false None false runs) else loadPackingNoContinuation D scan zero hasVolume accepts files i runs
  end.
Proof.
  intros N E. unfold loadPacking, findStartRunIndex. apply text_eqb_neq in N. rewrite N, E. cbn [bind fd_finished fd_index fd_continuation].
  destruct cont; [rewrite andb_false_r; reflexivity|]. rewrite andb_true_r. reflexivity.
Qed.
End load.

Section named.
Context {D : Type} (scan : text -> option (D * text)) (zero : D) (hasVolume : list D -> bool) (accepts : list D -> list (list D * list D) -> bool).
Notation load := (loadPacking D scan zero hasVolume accepts).
Notation stored := (stored scan zero hasVolume accepts).

Lemma named_first files name runs r : plain name -> NoDup (map run_name runs) -> nth_error runs 0 = Some r -> run_name r = name ->
  load files (Some name) None runs = Done (Loaded D 0 0 false None false runs).
Proof. intros (N1 & N2 & N3) ND H E. rewrite (named_is_index scan zero hasVolume accepts files name None runs 0 N1 (named_index name runs 0 r N2 N3 ND H E)). reflexivity. Qed.
Lemma named_previous files name runs i r q p : plain name -> NoDup (map run_name runs) -> nth_error runs (S i) = Some r -> run_name r = name -> nth_error runs i = Some q ->
  stored files q p -> load files (Some name) None runs = Done (Loaded D (S i) 0 false (Some p) false runs).
Proof.
  intros (N1 & N2 & N3) ND H E Hq Hp. rewrite (named_is_index scan zero hasVolume accepts files name None runs (S i) N1 (named_index name runs (S i) r N2 N3 ND H E)).
  cbn [Nat.eqb]. unfold loadPackingNoContinuation. cbn [Nat.sub]. rewrite Nat.sub_0_r, Hq. apply restored in Hp. rewrite Hp. reflexivity.
Qed.
Lemma named_unknown files name cont runs : plain name -> (forall r, In r runs -> run_name r <> name) -> load files (Some name) cont runs = Refused NoSuchRun.
Proof.
  intros (N1 & N2 & N3) A. unfold loadPacking, findStartRunIndex. apply text_eqb_neq in N1. rewrite N1, (unknown_name name runs N2 N3 A). reflexivity.
Qed.
Lemma named_continue files name cont runs i r n p : plain name -> NoDup (map run_name runs) -> nth_error runs i = Some r -> run_name r = name ->
  run_cycles r <> None -> proper_run r -> stored files r p -> performed_cycles files r n -> let upto := if cont =? 0 then thermalisation r else cont in
  exists r', with_thermalisation (Z.max 0 (upto - n)) r r' /\ let runs' := firstn i runs ++ r' :: skipn (S i) runs in
  load files (Some name) (Some cont) runs =
    if (upto <=? n) && (averaging r =? 0) then Done (Loaded D (S i) 0 false (Some p) (Nat.eqb (S i) (length runs)) runs')
    else Done (Loaded D i n true (Some p) false runs').
Proof.
  intros (N1 & N2 & N3) ND H E K (_ & P1 & P2 & _) Hp Hn upto. rewrite (named_is_index scan zero hasVolume accepts files name (Some cont) runs i N1 (named_index name runs i r N2 N3 ND H E)).
  rewrite (continued scan zero hasVolume accepts files cont i runs r n p H K Hp Hn P2). fold (target cont r) in upto. subst upto. cbv zeta.
  destruct (run_cycles r) as [c|] eqn:Ec; [|congruence]. destruct (Z.leb_spec (target cont r) n); cbn [andb].
  - exists (set_thermalization r None). rewrite Z.max_l by lia. split; [exact (set_with r c None Ec)|]. destruct (Z.ltb_spec 0 (averaging r)), (Z.eqb_spec (averaging r) 0); try lia; reflexivity.
  - exists (set_thermalization r (Some (target cont r - n))). rewrite Z.max_r by lia. split; [exact (set_with r c (Some _) Ec)|reflexivity].
Qed.
Lemma special_names (files : fs) cont runs i r : nth_error runs i = Some r -> plain (run_name r) -> NoDup (map run_name runs) ->
  (i = O -> load files (Some first_name) cont runs = load files (Some (run_name r)) cont runs) /\
  (S i = length runs -> load files (Some last_name) cont runs = load files (Some (run_name r)) cont runs).
Proof.
  intros H (N1 & N2 & N3) ND. pose proof (named_index (run_name r) runs i r N2 N3 ND H eq_refl) as E.
  split; intros L; rewrite (named_is_index scan zero hasVolume accepts files (run_name r) cont runs i N1 E); apply named_is_index; try discriminate.
  - subst i. reflexivity.
  - unfold findRunIndex. cbn [text_eqb first_name last_name Z.eqb Pos.eqb]. destruct runs as [|q runs]; [destruct i; discriminate|]. cbn. cbn [length] in L. f_equal. lia.
Qed.
End named.
