(** The contents of the output files during a run. *)
From Verif Require Import Base BaseProofs Num ModelEvent ModelText ModelHepMC ModelLHEF ModelStripper ModelIO IOProofs ModelCres ModelMain ModelFS SpecFS
  FSProofs FSProofs2 FSProofs3.

(** *** Abstract outputs are only extended *)
Section Abstract.
Context (N : NumOps) (double : parser N) (show : N -> text) (xi : text -> option (text * BinNums.N))
  (checks mw : bool) (names : list text) (scaling : list (text * N)) (fs : list text).
Notation build := (build_from_files xi checks scaling).
Notation copen := (cio_open xi checks scaling).
Notation cupd := (cio_update_file double show checks mw names).
Notation cupds := (cio_update_files double show xi checks mw names scaling).

Lemma cupd_extends : forall ws c rest c' a T b, cupd ws c = Ok (rest, c') -> c_outs c = a ++ T :: b -> length a = c_idx c ->
  exists t, c_outs c' = a ++ (T ++ t) :: b /\ c_idx c' = c_idx c.
Proof.
  induction ws as [|w ws IH]; intros c rest c' a T b H Ho Ha; cbn [cio_update_file] in H.
  - injection H as <- <-. exists []. rewrite app_nil_r. auto.
  - destruct (c_current c) as [f|]; [|discriminate]. destruct (fio_update double show checks mw names w f) as [[[t|] g]|e|]; cbn [bind] in H; try discriminate.
    + destruct (IH _ _ _ a (T ++ t) b H) as (t' & E1 & E2). { cbn. rewrite Ho. apply append_at, Ha. } { exact Ha. }
      exists (t ++ t'). rewrite app_assoc. auto.
    + injection H as <- <-. exists []. split; [|reflexivity]. cbn. rewrite Ho. apply append_at, Ha.
Qed.
Lemma open_outs idx c c' : wf N fs c -> copen idx c = Ok c' -> exists file f, nth_error fs idx = Some file /\ build file = Ok f /\ c_current c' = Some f /\
  idx < length fs /\ c_idx c' = idx /\ c_outs c' = firstn idx (c_outs c) ++ fio_header f :: skipn (S idx) (c_outs c) /\ wf N fs c'.
Proof.
  intros Hw H. destruct (open_inv N xi checks scaling fs c idx c' Hw H) as (Hw' & file & f & E & Hb & Hc & Hi & _).
  exists file, f. do 3 (split; [assumption|]). split; [apply nth_error_Some; congruence|]. split; [exact Hi|]. split; [|exact Hw'].
  destruct (open_ok N xi checks scaling fs c idx file f Hw E Hb) as (os & Hset & _ & Hop). rewrite Hop in H. injection H as <-. cbn. apply set_nth_at, Hset.
Qed.
Lemma cupds_step idx n ws c rest cend : wf N fs c -> cupds idx (S n) ws c = Ok (rest, cend) ->
  exists c1 c2 f g rest2 t, copen idx c = Ok c1 /\ cupd ws c1 = Ok (rest2, c2) /\ c_current c2 = Some g /\ idx < length fs /\
    (exists file, nth_error fs idx = Some file /\ build file = Ok f) /\ wf N fs c2 /\
    c_outs c1 = firstn idx (c_outs c) ++ fio_header f :: skipn (S idx) (c_outs c) /\ c_idx c1 = idx /\
    c_outs c2 = firstn idx (c_outs c) ++ (fio_header f ++ t) :: skipn (S idx) (c_outs c) /\ c_idx c2 = idx /\
    c_outs (cio_write (fio_finish g) g c2) = firstn idx (c_outs c) ++ (fio_header f ++ t ++ fio_finish g) :: skipn (S idx) (c_outs c) /\
    cupds (S idx) n rest2 (cio_write (fio_finish g) g c2) = Ok (rest, cend).
Proof.
  intros Hw H. cbn [cio_update_files] in H. destruct (copen idx c) as [c1|e|] eqn:E1; try discriminate. cbn [bind] in H.
  destruct (cupd ws c1) as [[rest2 c2]|e|] eqn:E2; try discriminate. cbn [bind] in H. destruct (c_current c2) as [g|] eqn:E3; [|discriminate].
  destruct (open_outs idx c c1 Hw E1) as (file & f & Hf & Hb & Hc & Hlt & Hi & Ho & Hw1).
  assert (Hla : length (firstn idx (c_outs c)) = idx) by (rewrite firstn_length, (proj2 Hw); lia).
  destruct (cupd_extends ws c1 rest2 c2 _ _ _ E2 Ho) as (t & Ho2 & Hi2). { congruence. }
  exists c1, c2, f, g, rest2, t. split; [reflexivity|]. do 3 (split; [assumption|]). split; [eauto|].
  assert (Hw2 : wf N fs c2).
  { split; [|rewrite Ho2, app_length, Hla; cbn [length]; rewrite skipn_length, (proj2 Hw); lia].
    clear -E2 Hw1. revert c1 Hw1 E2. induction ws as [|w ws IH]; intros c1 Hw1 E2; cbn [cio_update_file] in E2; [injection E2 as <- <-; apply Hw1|].
    destruct (c_current c1) as [f|]; [|discriminate]. destruct (fio_update double show checks mw names w f) as [[[t|] g]|e|]; cbn [bind] in E2; try discriminate.
    - eapply IH; [|exact E2]. apply append_wf, Hw1.
    - injection E2 as <- <-. apply Hw1. }
  split; [exact Hw2|]. split; [exact Ho|]. split; [exact Hi|]. split; [exact Ho2|]. split; [congruence|]. split; [|exact H].
  cbn. rewrite Ho2, Hi2, Hi, app_assoc. apply append_at, Hla.
Qed.
Lemma cupds_firstn : forall n idx ws c rest cend, wf N fs c -> cupds idx n ws c = Ok (rest, cend) -> firstn idx (c_outs cend) = firstn idx (c_outs c) /\ wf N fs cend.
Proof.
  induction n as [|n IH]; intros idx ws c rest cend Hw H. { cbn in H. injection H as <- <-. auto. }
  destruct (cupds_step idx n ws c rest cend Hw H) as (c1 & c2 & f & g & rest2 & t & _ & _ & _ & Hlt & _ & Hw2 & _ & _ & _ & _ & Ho & H').
  destruct (IH _ _ _ _ _ (append_wf N fs _ _ _ Hw2) H') as [E Hwe]. split; [|exact Hwe].
  rewrite Ho in E. assert (Hla : length (firstn idx (c_outs c)) = idx) by (rewrite firstn_length, (proj2 Hw); lia).
  apply (f_equal (firstn idx)) in E. rewrite !firstn_firstn, Nat.min_l in E by lia. rewrite E, firstn_app, Hla, Nat.sub_diag. cbn [firstn].
  rewrite app_nil_r, firstn_firstn, Nat.min_id. reflexivity.
Qed.
Lemma firstn_nth A (l m : list A) k j : firstn k l = firstn k m -> j < k -> nth_error l j = nth_error m j.
Proof.
  revert l m j. induction k as [|k IH]; intros l m j H Hj; [lia|]. destruct l as [|x l], m as [|y m]; cbn in H; try discriminate; [reflexivity|].
  injection H as -> H. destruct j as [|j]; [reflexivity|]. cbn. apply IH; [exact H|lia].
Qed.
Lemma cupds_nth idx n ws c rest cend : wf N fs c -> cupds idx (S n) ws c = Ok (rest, cend) ->
  forall c2 (f g : fio N) t, c_outs (cio_write (fio_finish g) g c2) = firstn idx (c_outs c) ++ (fio_header f ++ t ++ fio_finish g) :: skipn (S idx) (c_outs c) ->
  forall rest2, wf N fs (cio_write (fio_finish g) g c2) -> idx < length fs -> cupds (S idx) n rest2 (cio_write (fio_finish g) g c2) = Ok (rest, cend) ->
  nth_error (c_outs cend) idx = Some (fio_header f ++ t ++ fio_finish g).
Proof.
  intros Hw _ c2 f g t Ho rest2 Hw2 Hlt H. destruct (cupds_firstn _ _ _ _ _ _ Hw2 H) as [E _].
  rewrite (firstn_nth _ _ _ _ idx E) by lia. rewrite Ho. assert (Hla : length (firstn idx (c_outs c)) = idx) by (rewrite firstn_length, (proj2 Hw); lia).
  rewrite nth_error_app2, Hla, Nat.sub_diag by lia. reflexivity.
Qed.
Lemma cupds_headers : forall n idx ws c rest cend, wf N fs c -> cupds idx n ws c = Ok (rest, cend) -> forall j, idx <= j -> j < idx + n ->
  exists file f t, nth_error fs j = Some file /\ build file = Ok f /\ nth_error (c_outs cend) j = Some (fio_header f ++ t).
Proof.
  induction n as [|n IH]; intros idx ws c rest cend Hw H j Hj1 Hj2; [lia|].
  destruct (cupds_step idx n ws c rest cend Hw H) as (c1 & c2 & f & g & rest2 & t & _ & _ & _ & Hlt & (file & Hf & Hb) & Hw2 & _ & _ & _ & _ & Ho & H').
  pose proof (append_wf N fs (fio_finish g) g _ Hw2) as Hw3.
  destruct (Nat.eq_dec j idx) as [->|Hn].
  - exists file, f, (t ++ fio_finish g). split; [exact Hf|]. split; [exact Hb|].
    eapply cupds_nth; [exact Hw|exact H|exact Ho|exact Hw3|exact Hlt|exact H'].
  - eapply IH; [exact Hw3|exact H'|lia|lia].
Qed.
End Abstract.

Section Contents.
Context (start : disk) (faults : nat -> option nat) (cap : nat).
Context (N : NumOps) (double : parser N) (show : N -> text) (xml : text -> option (xml_tag N))
  (checks mw : bool) (names : list text) (scaling : list (text * N)).
Context (ps : list (path * path)) (fs : list text).
Hypothesis Hin : input_files start ps fs.
Hypothesis Hsep : separate ps.
Notation nofault := (no_failure faults).
Notation outs := (map snd ps).
Notation xi := (header_info xml).
Notation build := (build_from_files xi checks scaling).
Notation copen := (cio_open xi checks scaling).
Notation dopen := (dio_open start faults cap xml checks scaling ps).
Context (target : path -> text).
Hypothesis Hhead : forall i a p, nth_error ps i = Some (a, p) ->
  exists content f rest, nth_error fs i = Some content /\ build content = Ok f /\ target p = fio_header f ++ rest.
Notation safe := (safe start outs target).
Notation strong := (strong start cap outs target).
Notation weak := (weak start outs target).
Notation fresh := (fresh start outs target).
Notation gone := (gone start faults cap target).
Notation sane := (sane N ps).
Notation mirrors := (mirrors N ps fs).
Notation new_spec := (new_output_spec start faults cap outs target).
Notation drop_weak := (drop_weak start faults cap outs target).
Notation drop_strong := (drop_strong start faults cap outs target).
Let Hdis := proj2 Hsep.

(** What [open] does *)
Lemma dopen_cases idx s : grows outs [] (d_log s) ->
  (nth_error ps idx = None /\ dopen idx s = (Panic, s)) \/
  exists a p f rest, nth_error ps idx = Some (a, p) /\ In p outs /\ target p = fio_header f ++ rest /\
    dopen idx s = match new_output faults cap p (fio_header f) (d_log s) with
      | (None, log) => (Err io_error, mkDIO (d_current s) (d_idx s) log)
      | (Some w, log) => (Ok tt, mkDIO (Some (f, w)) idx (drop_current faults (d_current s) log))
      end.
Proof.
  intros Hg. unfold dio_open. destruct (nth_error ps idx) as [[a p]|] eqn:En; [right|left; auto].
  destruct (ps_nth start ps fs Hin Hdis idx a p En) as (content & Ef & Es & Hp & Ha).
  destruct (Hhead idx a p En) as (content' & f & rest & Ef' & Hb & Ht). rewrite Ef in Ef'. injection Ef' as <-.
  exists a, p, f, rest. split; [reflexivity|]. split; [exact Hp|]. split; [exact Ht|].
  rewrite (grows_other start outs [] (d_log s) a Hg Ha). change (replay start [] a) with (start a). rewrite Es, Hb. reflexivity.
Qed.

(** Before the weights are written *)
Definition reading (s : dio N) : Prop := safe (d_log s) /\ sane s /\ forall f w, d_current s = Some (f, w) -> fresh w (d_log s).
Lemma fresh_path w log : fresh w log -> In (w_path w) outs.
Proof. intros ((T & H & _) & _). exact H. Qed.
Lemma fresh_other w qs a b : grows qs a b -> ~ In (w_path w) qs -> fresh w a -> fresh w b.
Proof. intros H Hn Hf. pose proof Hf as (_ & _ & L & HL). eapply fresh_has; [exact Hf|]. eapply has_grows; eauto. Qed.
Lemma reading_finish s : reading s -> safe (drop_current faults (d_current s) (d_log s)).
Proof.
  intros (Hs & _ & Hf). destruct (d_current s) as [[f w]|]; [|exact Hs]. cbn. apply drop_weak; [exact Hs|]. eapply fresh_weak, Hf. reflexivity.
Qed.
Lemma grows_p p a b : In p outs -> grows [p] a b -> grows outs a b.
Proof. intros Hp. apply grows_incl. intros q [<-|[]]. exact Hp. Qed.
Lemma open_reading idx s : reading s -> reading (snd (dopen idx s)).
Proof.
  intros (Hs & (Hg & Ho) & Hf). destruct (dopen_cases idx s Hg) as [[_ ->]|(a & p & f & rest & En & Hp & Ht & ->)]; [split; [|split]; [|split|]; assumption|].
  pose proof (new_spec p (fio_header f) (d_log s) Hp Hs (ex_intro _ rest Ht)) as NO. destruct (new_output faults cap p (fio_header f) (d_log s)) as [[w|] log'].
  - destruct NO as (G & S1 & _ & Hw). destruct (Hw w eq_refl) as (Ew & Hst & Hfr). cbn [snd].
    assert (Old : forall g v, d_current s = Some (g, v) -> fresh v log').
    { intros g v E. specialize (Hf g v E). destruct (Nat.eq_dec (w_path v) p) as [Hv|Hv].
      - destruct Hfr as (_ & _ & L & HL). rewrite Ew in HL. eapply fresh_has; [exact Hf|]. rewrite Hv. exact HL.
      - eapply fresh_other; eauto. intros [?|[]]; congruence. }
    assert (F : safe (drop_current faults (d_current s) log') /\ grows outs log' (drop_current faults (d_current s) log') /\ fresh w (drop_current faults (d_current s) log')).
    { destruct (d_current s) as [[g v]|]; cbn [drop_current]; [|split; [exact S1|split; [apply grows_refl|exact Hfr]]].
      pose proof (Old g v eq_refl) as Hv. destruct (drop_weak v log' S1 (fresh_weak _ _ _ _ _ Hv)) as (G2 & S2 & L & HL).
      split; [exact S2|]. split; [eapply grows_p; [eapply fresh_path; exact Hv|exact G2]|].
      destruct (Nat.eq_dec (w_path v) p) as [Hvp|Hvp].
      - rewrite Hvp in HL. eapply fresh_has; [exact Hfr|]. rewrite Ew. exact HL.
      - eapply fresh_other; [exact G2| |exact Hfr]. intros [?|[]]; congruence. }
    destruct F as (F1 & F2 & F3). split; [exact F1|]. cbn [d_log d_current]. split; [split; cbn [d_log d_current]|].
    + eapply grows_trans; [exact Hg|]. eapply grows_trans; [eapply grows_p; eauto|exact F2].
    + intros g v E. injection E as <- <-. congruence.
    + intros g v E. injection E as <- <-. exact F3.
  - destruct NO as (G & S1 & Hn & _). destruct (Hn eq_refl) as [_ Hc]. cbn [snd]. split; [exact S1|]. split; [split; cbn [d_log d_current]; [|exact Ho]|].
    + eapply grows_trans; [exact Hg|]. eapply grows_p; eauto.
    + intros g v E. cbn [d_current d_log] in *. specialize (Hf g v E). destruct (Nat.eq_dec (w_path v) p) as [Hv|Hv].
      * destruct Hc as [Hc|[L HL]]; [|eapply fresh_has; [exact Hf|]; rewrite Hv; exact HL].
        pose proof Hf as (_ & _ & L & HL1 & HL2). eapply fresh_has; [exact Hf|]. split; [exact HL1|]. rewrite Hv, Hc, <- Hv. exact HL2.
      * eapply fresh_other; eauto. intros [?|[]]; congruence.
Qed.
Lemma init_loop_reading : forall n idx s, reading s -> reading (snd (dio_init_loop start faults cap xml checks scaling ps idx n s)).
Proof.
  induction n as [|n IH]; intros idx s H; cbn [dio_init_loop]; [exact H|]. pose proof (open_reading idx s H) as H1.
  destruct (dopen idx s) as [[u|e|] s1]; auto.
Qed.
Lemma new_reading : reading (snd (dio_new start faults cap xml checks scaling ps [])).
Proof.
  unfold dio_new. assert (H : reading (mkDIO None 0 [])) by (split; [apply safe_nil|]; split; [split; [apply grows_refl|discriminate]|discriminate]).
  destruct (length ps =? 0); [exact H|]. pose proof (init_loop_reading (length ps) 0 _ H) as H1.
  destruct (dio_init_loop _ _ _ _ _ _ _ 0 _ _) as [[u|e|] s1]; [apply open_reading; exact H1|exact H1..].
Qed.
Lemma reading_with s f w g i : reading s -> d_current s = Some (f, w) -> reading (mkDIO (Some (g, w)) i (d_log s)).
Proof.
  intros (Hs & (Hg & Ho) & Hf) E. split; [exact Hs|]. split; [split; [exact Hg|]|]; cbn; intros g' v E'; injection E' as _ <-; eauto.
Qed.
Lemma next_reading : forall fuel s, reading s -> reading (snd (dio_next start faults cap double show xml checks scaling ps fuel s)).
Proof.
  induction fuel as [|fuel IH]; intros s H; cbn [dio_next].
  - destruct (d_current s) as [[f w]|] eqn:Ec.
    + destruct (fio_next double show checks f); cbn [snd]; try (eapply reading_with; eauto); try exact H.
      destruct (d_idx s + 1 =? length ps); cbn [snd]; [eapply reading_with; eauto|exact H].
    + destruct (length ps =? 0); exact H.
  - assert (Open : forall idx, reading (snd match dopen idx s with (Ok _, s') => dio_next start faults cap double show xml checks scaling ps fuel s' | (Err e, s') => (Ok (Some (inr e)), s') | (Panic, s') => (Panic, s') end)).
    { intros idx. pose proof (open_reading idx s H) as H1. destruct (dopen idx s) as [[u|e|] s1]; auto. }
    destruct (d_current s) as [[f w]|] eqn:Ec.
    + destruct (fio_next double show checks f); cbn [snd]; try (eapply reading_with; eauto); try exact H.
      destruct (d_idx s + 1 =? length ps); cbn [snd]; [eapply reading_with; eauto|apply Open].
    + destruct (length ps =? 0); [exact H|apply Open].
Qed.
Lemma read_reading : forall fuel s, reading s -> reading (snd (dio_read_all start faults cap double show xml checks scaling ps fuel s)).
Proof.
  induction fuel as [|fuel IH]; intros s H; cbn [dio_read_all]; [exact H|]. pose proof (next_reading (S (length ps)) s H) as H1.
  destruct (dio_next _ _ _ _ _ _ _ _ _ (S (length ps)) s) as [[[[t|e]|]|e|] s1]; try exact H1.
  destruct (d_current s1) as [[f w]|]; [|exact H1]. specialize (IH s1 H1). destruct (dio_read_all _ _ _ _ _ _ _ _ _ fuel s1) as [[l|] s2]; exact IH.
Qed.

(** While the weights are written *)
Definition closed (k : nat) (log : list syscall) : Prop := forall j a p, j < k -> nth_error ps j = Some (a, p) -> gone (target p) log p.
Definition closing (s : dio N) : Prop := safe (d_log s) /\ sane s /\ forall f w, d_current s = Some (f, w) -> weak w (d_log s).
Definition writing (idx : nat) (s : dio N) : Prop :=
  safe (d_log s) /\ sane s /\
  match d_current s with
  | None => closed idx (d_log s)
  | Some (f, w) => exists j a, idx = S j /\ nth_error ps j = Some (a, w_path w) /\ strong w (target (w_path w)) (d_log s) /\ closed j (d_log s)
  end.
Lemma closing_finish s : closing s -> safe (drop_current faults (d_current s) (d_log s)).
Proof. intros (Hs & _ & Hf). destruct (d_current s) as [[f w]|]; [|exact Hs]. cbn. apply drop_weak; [exact Hs|]. eapply Hf. reflexivity. Qed.
Lemma writing_closing idx s : writing idx s -> closing s.
Proof.
  intros (Hs & Hn & H). split; [exact Hs|]. split; [exact Hn|]. intros f w E. rewrite E in H. destruct H as (j & a & _ & _ & Hst & _). eapply strong_weak, Hst.
Qed.
Lemma reading_closing s : reading s -> closing s.
Proof. intros (Hs & Hn & H). split; [exact Hs|]. split; [exact Hn|]. intros f w E. eapply fresh_weak, H, E. Qed.
Lemma different i j a b p q : nth_error ps i = Some (a, p) -> nth_error ps j = Some (b, q) -> i <> j -> p <> q.
Proof.
  intros H1 H2 Hij ->. apply Hij. apply (proj1 (NoDup_nth_error outs) (proj1 Hsep)).
  - rewrite map_length. apply nth_error_Some. congruence.
  - rewrite (map_nth_error snd _ _ H1), (map_nth_error snd _ _ H2). reflexivity.
Qed.
Lemma closed_grows k i a p log log' : grows [p] log log' -> nth_error ps i = Some (a, p) -> k <= i -> closed k log -> closed k log'.
Proof.
  intros G En Hk H j b q Hj Hq. eapply gone_grows; [exact G| |eapply H; eauto]. intros [E|[]]. revert E. eapply different; eauto. lia.
Qed.
Lemma writing_drop idx s : writing idx s -> let log' := drop_current faults (d_current s) (d_log s) in safe log' /\ closed idx log' /\ grows outs (d_log s) log'.
Proof.
  intros (Hs & Hn & H). destruct (d_current s) as [[f w]|]; cbn; [|split; [exact Hs|split; [exact H|apply grows_refl]]]. destruct H as (j & a & -> & En & Hst & Hc).
  destruct (drop_weak w _ Hs (strong_weak _ _ _ _ _ _ _ Hst)) as (G & S1 & _). split; [exact S1|]. split; [|eapply grows_p; [apply Hst|exact G]].
  intros i b p Hi Ep. destruct (Nat.eq_dec i j) as [->|Hij].
  - rewrite En in Ep. injection Ep as <- <-. apply drop_strong; auto.
  - eapply closed_grows; [exact G|exact En|apply le_n|exact Hc| |exact Ep]. lia.
Qed.

Lemma open_writing idx s : writing idx s ->
  closing (snd (dopen idx s)) /\
  (forall u, fst (dopen idx s) = Ok u -> exists f w a p, d_current (snd (dopen idx s)) = Some (f, w) /\ nth_error ps idx = Some (a, p) /\ w_path w = p /\
     strong w (fio_header f) (d_log (snd (dopen idx s))) /\ closed idx (d_log (snd (dopen idx s)))).
Proof.
  intros Hwr. pose proof Hwr as (Hs & (Hg & Ho) & H). destruct (dopen_cases idx s Hg) as [[_ ->]|(a & p & f & rest & En & Hp & Ht & ->)].
  { split; [eapply writing_closing; exact Hwr|discriminate]. }
  pose proof (new_spec p (fio_header f) (d_log s) Hp Hs (ex_intro _ rest Ht)) as NO. destruct (new_output faults cap p (fio_header f) (d_log s)) as [[w|] log'].
  - destruct NO as (G & S1 & _ & Hw). destruct (Hw w eq_refl) as (Ew & Hst & _). cbn [fst snd].
    assert (W1 : writing idx (mkDIO (d_current s) (d_idx s) log')).
    { split; [exact S1|]. split; [split; cbn [d_log d_current]; [eapply grows_trans; [exact Hg|eapply grows_p; eauto]|exact Ho]|]. cbn [d_current d_log].
      destruct (d_current s) as [[g v]|].
      - destruct H as (j & b & -> & Ej & Hv & Hc). exists j, b. split; [reflexivity|]. split; [exact Ej|]. split.
        + eapply strong_grows; [exact G| |exact Hv]. intros [E|[]]. revert E. eapply different; [exact En|exact Ej|lia].
        + eapply closed_grows; [exact G|exact En|lia|exact Hc].
      - eapply closed_grows; [exact G|exact En|lia|exact H]. }
    destruct (writing_drop _ _ W1) as (S2 & C2 & G2). cbn [d_current d_log] in *.
    assert (Hst2 : strong w (fio_header f) (drop_current faults (d_current s) log')).
    { destruct (d_current s) as [[g v]|]; [|exact Hst]. cbn. destruct H as (j & b & -> & Ej & Hv & _).
      eapply strong_grows; [apply drop_grows| |exact Hst]. intros [E|[]]. revert E. rewrite Ew. eapply different; [exact Ej|exact En|lia]. }
    split.
    + split; [exact S2|]. cbn [d_log d_current]. split; [split; cbn [d_log d_current]|].
      * eapply grows_trans; [exact Hg|]. eapply grows_trans; [eapply grows_p; eauto|exact G2].
      * intros g v E. injection E as <- <-. congruence.
      * intros g v E. injection E as <- <-. eapply strong_weak, Hst2.
    + intros _ _. exists f, w, a, p. cbn [d_current d_log]. auto.
  - destruct NO as (G & S1 & Hn & _). cbn [fst snd]. split; [|discriminate]. split; [exact S1|]. cbn [d_log d_current]. split; [split; cbn [d_log d_current]; [|exact Ho]|].
    + eapply grows_trans; [exact Hg|]. eapply grows_p; eauto.
    + intros g v E. rewrite E in H. destruct H as (j & b & -> & Ej & Hv & _). eapply weak_grows; [exact G| |eapply strong_weak, Hv].
      intros [E'|[]]. revert E'. eapply different; [exact En|exact Ej|lia].
Qed.

(** One file *)
Lemma write_writing bytes g s f w T idx a : safe (d_log s) -> sane s -> d_current s = Some (f, w) -> nth_error ps idx = Some (a, w_path w) ->
  strong w T (d_log s) -> closed idx (d_log s) -> (exists rest, target (w_path w) = T ++ bytes ++ rest) ->
  let r := dio_write faults cap bytes g s in
  safe (d_log (snd r)) /\ sane (snd r) /\ closed idx (d_log (snd r)) /\
  exists w' T', d_current (snd r) = Some (g, w') /\ w_path w' = w_path w /\ strong w' T' (d_log (snd r)) /\ (forall u, fst r = Ok u -> T' = T ++ bytes).
Proof.
  intros Hs (Hg & Ho) Ec En Hst Hc Hr. unfold dio_write. rewrite Ec.
  pose proof (write_all_spec start faults cap outs target bytes w T (d_log s) Hs Hst Hr) as W.
  destruct (write_all faults cap bytes w (d_log s)) as [[ok w'] log']. destruct W as (W1 & W2 & W3 & W4 & W5). cbn [fst snd d_log d_current].
  split; [exact W3|]. split; [split; cbn [d_log d_current]|].
  - eapply grows_trans; [exact Hg|]. eapply grows_p; [eapply Ho; eauto|exact W2].
  - intros g' v E. injection E as _ <-. rewrite W1. eauto.
  - split; [eapply closed_grows; [exact W2|exact En|lia|exact Hc]|]. destruct ok.
    + exists w', (T ++ bytes). split; [reflexivity|]. split; [exact W1|]. split; [apply W4; reflexivity|]. auto.
    + destruct (W5 eq_refl) as (_ & T' & HT'). exists w', T'. split; [reflexivity|]. split; [exact W1|]. split; [exact HT'|discriminate].
Qed.
Notation cupd := (cio_update_file double show checks mw names).
Lemma update_file_writing idx a : forall ws c s f w A T B rest c', mirrors c s -> safe (d_log s) -> d_current s = Some (f, w) -> nth_error ps idx = Some (a, w_path w) ->
  strong w T (d_log s) -> closed idx (d_log s) -> c_outs c = A ++ T :: B -> length A = c_idx c -> cupd ws c = Ok (rest, c') ->
  (forall T', c_outs c' = A ++ T' :: B -> exists rest', target (w_path w) = T' ++ rest') ->
  let r := dio_update_file faults cap double show checks mw names ws s in
  safe (d_log (snd r)) /\ sane (snd r) /\ closed idx (d_log (snd r)) /\
  exists f' w' T', d_current (snd r) = Some (f', w') /\ w_path w' = w_path w /\ strong w' T' (d_log (snd r)) /\ (forall u, fst r = Ok u -> c_outs c' = A ++ T' :: B).
Proof.
  induction ws as [|x ws IH]; intros c s f w A T B rest c' Hm Hs Ec En Hst Hc HA Hl H Ht; cbn [dio_update_file cio_update_file] in *.
  - injection H as <- <-. cbn [fst snd]. split; [exact Hs|]. split; [apply Hm|]. split; [exact Hc|]. exists f, w, T. auto.
  - pose proof Hm as (Hw & Hcur & Hi & Hsane). rewrite Hcur, Ec in H. cbn [option_map fst] in H. rewrite Ec.
    destruct (fio_update double show checks mw names x f) as [[[t|] g]|e|]; cbn [bind] in H; try discriminate.
    + assert (Eo : c_outs (cio_write t g c) = A ++ (T ++ t) :: B) by (cbn; rewrite HA; apply append_at, Hl).
      destruct (cupd_extends N double show checks mw names ws _ rest c' A (T ++ t) B H Eo Hl) as (t' & Eo' & _).
      assert (Hr : exists rest', target (w_path w) = T ++ t ++ rest').
      { destruct (Ht _ Eo') as [rest' E]. exists (t' ++ rest'). rewrite E, <- !app_assoc. reflexivity. }
      destruct (write_writing t g s f w T idx a Hs Hsane Ec En Hst Hc Hr) as (S1 & S2 & S3 & w' & T' & E1 & E2 & E3 & E4).
      destruct (write_agree faults cap N ps fs t g c s f w Hm Ec) as (_ & Hm1 & _).
      destruct (dio_write faults cap t g s) as [[u|e|] s1]; cbn [fst snd] in *; [|split; [exact S1|split; [exact S2|split; [exact S3|]]]; exists g, w', T'; (split; [exact E1|split; [exact E2|split; [exact E3|discriminate]]])..].
      rewrite (E4 u eq_refl) in E3. rewrite <- E2 in En, Ht.
      destruct (IH _ s1 g w' A (T ++ t) B rest c' Hm1 S1 E1 En E3 S3 Eo Hl H Ht) as (I1 & I2 & I3 & f2 & w2 & T2 & I4 & I5 & I6 & I7).
      split; [exact I1|]. split; [exact I2|]. split; [exact I3|]. exists f2, w2, T2. split; [exact I4|]. split; [congruence|]. auto.
    + injection H as <- <-. cbn [fst snd d_log d_current]. split; [exact Hs|]. split; [split; [apply Hsane|]|].
      { cbn. intros g' v E. injection E as _ <-. eapply Hsane; eauto. }
      split; [exact Hc|]. exists g, w, T. split; [reflexivity|]. split; [reflexivity|]. split; [exact Hst|]. intros _ _. cbn. rewrite HA, (append_at _ _ _ _ _ Hl), app_nil_r. reflexivity.
Qed.

(** All files *)
Notation cupds := (cio_update_files double show xi checks mw names scaling).
Lemma update_files_writing : forall n idx ws c s rest cend, mirrors c s -> writing idx s -> idx + n = length ps -> cupds idx n ws c = Ok (rest, cend) ->
  (forall j a p, idx <= j -> nth_error ps j = Some (a, p) -> nth_error (c_outs cend) j = Some (target p)) ->
  let r := dio_update_files start faults cap double show xml checks mw names scaling ps idx n ws s in
  closing (snd r) /\ (forall u, fst r = Ok u -> writing (length ps) (snd r)).
Proof.
  induction n as [|n IH]; intros idx ws c s rest cend Hm Hwr Hn H Ht.
  - cbn [dio_update_files fst snd]. split; [eapply writing_closing; exact Hwr|]. intros _ _. replace (length ps) with idx by lia. exact Hwr.
  - destruct (cupds_step N double show xi checks mw names scaling fs idx n ws c rest cend (proj1 Hm) H)
      as (c1 & c2 & f & g & rest2 & t & E1 & E2 & E3 & Hlt & (file & Hf & Hb) & Hw2 & Ho1 & Hi1 & Ho2 & Hi2 & Ho3 & H').
    pose proof (append_wf N fs (fio_finish g) g c2 Hw2) as Hw3.
    pose proof (cupds_nth N double show xi checks mw names scaling fs idx n ws c rest cend (proj1 Hm) H c2 f g t Ho3 rest2 Hw3 Hlt H') as Hend.
    cbn [dio_update_files]. destruct (open_writing idx s Hwr) as [Hcl1 Hop]. pose proof (open_agree start faults cap N xml checks scaling ps fs Hin Hdis idx c s Hm) as [_ [_ Hag]].
    destruct (dopen idx s) as [[u|e|] s1]; cbn [fst snd] in *; [|split; [exact Hcl1|discriminate]..].
    destruct Hag as (c1' & E1' & Hm1). rewrite E1 in E1'. injection E1' as <-.
    destruct (Hop u eq_refl) as (f1 & w & a & p & Ec & En & Ew & Hst & Hc1).
    assert (Ef : f1 = f).
    { destruct (open_outs N xi checks scaling fs idx c c1 (proj1 Hm) E1) as (file' & f' & Hf' & Hb' & Hcur & _). pose proof Hm1 as (_ & Hcur' & _). rewrite Ec in Hcur'. cbn in Hcur'. congruence. }
    subst f1. assert (Etp : target p = fio_header f ++ t ++ fio_finish g) by (specialize (Ht idx a p (le_n _) En); congruence).
    assert (Hla : length (firstn idx (c_outs c)) = idx) by (rewrite firstn_length, (proj2 (proj1 Hm)); lia).
    subst p.
    destruct (update_file_writing idx a ws c1 s1 f w _ _ _ rest2 c2 Hm1 (proj1 Hcl1) Ec En Hst Hc1 Ho1 (eq_trans Hla (eq_sym Hi1)) E2) as (U1 & U2 & U3 & f2 & w2 & T2 & U4 & U5 & U6 & U7).
    { intros T' ET. rewrite Ho2 in ET. apply app_inv_head in ET. injection ET as <-. exists (fio_finish g). rewrite Etp, app_assoc. reflexivity. }
    destruct (update_file_agree faults cap N double show checks mw names ps fs ws c1 s1 Hm1) as [_ [_ Hag2]].
    destruct (dio_update_file faults cap double show checks mw names ws s1) as [[rest2'|e|] s2]; cbn [fst snd] in *;
      [|split; [split; [exact U1|split; [exact U2|intros g' v E; rewrite U4 in E; injection E as <- <-; eapply strong_weak; exact U6]]|discriminate]..].
    destruct Hag2 as ([r2 c2'] & E2' & Er & Hm2). rewrite E2 in E2'. injection E2' as <- <-. cbn [fst snd] in *. subst rest2'.
    assert (ET2 : T2 = fio_header f ++ t). { specialize (U7 _ eq_refl). rewrite Ho2 in U7. apply app_inv_head in U7. injection U7 as ->. reflexivity. }
    subst T2. rewrite U4. assert (Eg : f2 = g). { pose proof Hm2 as (_ & Hcur & _). rewrite U4 in Hcur. cbn in Hcur. congruence. } subst f2.
    assert (En2 : nth_error ps idx = Some (a, w_path w2)) by congruence.
    assert (Et2 : target (w_path w2) = (fio_header f ++ t) ++ fio_finish g) by (rewrite U5, Etp, app_assoc; reflexivity).
    assert (Next : forall s3 v c3, mirrors c3 s3 -> safe (d_log s3) -> sane s3 -> closed idx (d_log s3) -> d_current s3 = Some (g, v) -> w_path v = w_path w2 ->
      strong v (target (w_path w2)) (d_log s3) -> cupds (S idx) n rest2 c3 = Ok (rest, cend) ->
      let r := dio_update_files start faults cap double show xml checks mw names scaling ps (S idx) n rest2 s3 in
      closing (snd r) /\ (forall u, fst r = Ok u -> writing (length ps) (snd r))).
    { intros s3 v c3 M3 V1 V2 V3 V4 V5 V6 V7. apply (IH (S idx) rest2 c3 s3 rest cend M3); [|lia|exact V7|intros j b q Hj; apply Ht; lia].
      split; [exact V1|]. split; [exact V2|]. rewrite V4. exists idx, a. rewrite V5. split; [reflexivity|]. split; [exact En2|]. split; [exact V6|exact V3]. }
    destruct g as [r|r|r scale].
    + cbn [fio_finish] in *. rewrite app_nil_r in Et2. apply (Next s2 w2 (cio_write [] (IOHepMC r) c2)); auto; [|congruence]. eapply write_nil_mirrors; eauto.
    + destruct (write_writing (@fio_finish N (IOLhef r)) (IOLhef r) s2 _ w2 _ idx a U1 U2 U4 En2 U6 U3) as (V1 & V2 & V3 & w3 & T3 & V4 & V5 & V6 & V7).
      { exists []. rewrite app_nil_r. exact Et2. }
      destruct (write_agree faults cap N ps fs (@fio_finish N (IOLhef r)) (IOLhef r) c2 s2 _ w2 Hm2 U4) as (_ & Hm3 & _).
      destruct (dio_write faults cap (@fio_finish N (IOLhef r)) (IOLhef r) s2) as [[u3|e|] s3]; cbn [fst snd] in *;
        [|split; [split; [exact V1|split; [exact V2|intros g' v E; rewrite V4 in E; injection E as <- <-; eapply strong_weak; exact V6]]|discriminate]..].
      rewrite (V7 u3 eq_refl), <- Et2 in V6. apply (Next s3 w3 (cio_write (@fio_finish N (IOLhef r)) (IOLhef r) c2)); auto.
    + cbn [fio_finish] in *. rewrite app_nil_r in Et2. apply (Next s2 w2 (cio_write [] (IOStripper r scale) c2)); auto; [|congruence]. eapply write_nil_mirrors; eauto.
Qed.
End Contents.
