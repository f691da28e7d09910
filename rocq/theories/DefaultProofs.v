(** Lemmas on the program in the default build (feature "multiweight", no named weights), for C78. *)
From Coq Require Import Reals Lra List Arith Lia Permutation Ascii Bool ZArith.
From Verif Require Import Base BaseProofs Num ModelEvent SpecEvent EventProofs ModelText SpecText SpecFormats TextProofs ModelHepMC ModelLHEF ModelStripper ModelIO IOProofs
  ModelSeeds ModelCell ModelNaive NaiveProofs SpecTree ModelVPTree SpecSearch ModelResampler ModelDistance SpecDistance
  ModelCluster ModelOpt SpecOpt ModelUnweight ModelCres SpecCres SpecWeights CresProofs CresProofs2 ModelMain SpecMain MainProofs MainProofs2 MainProofs3 SpecPanic PanicProofs2 ModelProgram ProgramProofs ProgramProofs2
  PropsProgram SumProofs CellProofs SpecUnweight SpecLocal.
Import ListNotations.
Local Open Scope R_scope.

Lemma reweighted_written (evs : list (Event RN)) W : length W = length evs ->
  map ev_weights (reweighted_all evs W) = written (map ev_weights evs) W.
Proof.
  unfold reweighted_all, written. revert W. induction evs as [|e evs IH]; intros [|w W] Hl; try discriminate; [reflexivity|].
  cbn [combine map]. f_equal. apply IH. injection Hl as Hl. exact Hl.
Qed.
Lemma reweighted_out (evs : list (Event RN)) W : length W = length evs -> map ev_out (reweighted_all evs W) = map ev_out evs.
Proof.
  unfold reweighted_all. revert W. induction evs as [|e evs IH]; intros [|w W] Hl; try discriminate; [reflexivity|].
  cbn [combine map]. f_equal. apply IH. injection Hl as Hl. exact Hl.
Qed.

Lemma nodup_app_iff {A} (a b : list A) : NoDup (a ++ b) <-> NoDup a /\ NoDup b /\ forall x, In x a -> ~ In x b.
Proof.
  induction a as [|x a IH]; cbn [app].
  - split; [intros H; split; [constructor|split; [exact H|intros y []]]|intros (_ & H & _); exact H].
  - split.
    + intros H. inversion H as [|? ? Hx Hn]; subst. apply IH in Hn. destruct Hn as (A1 & A2 & A3). rewrite in_app_iff in Hx.
      split; [constructor; [tauto|exact A1]|]. split; [exact A2|]. intros y [<-|Hy]; [tauto|apply A3; exact Hy].
    + intros (H1 & H2 & H3). inversion H1 as [|? ? Hx Hn]; subst. constructor.
      * rewrite in_app_iff. intros [Hi|Hi]; [tauto|]. exact (H3 x (or_introl eq_refl) Hi).
      * apply IH. split; [exact Hn|]. split; [exact H2|]. intros y Hy. apply H3. right. exact Hy.
Qed.

Section Default.
Context (double : parser RN) (sort : sorter) (neutrino hadron : Z -> bool)
  (delta_r : PseudoJet RN -> PseudoJet RN -> RN)
  (cluster_if : JetAlgorithm -> RN -> (PseudoJet RN -> bool) -> list (PseudoJet RN) -> list (PseudoJet RN))
  (psum : list R -> R) (draws : nat -> R)
  (shuffle : list (Event RN + @cres_error (option read_error)) -> list (Event RN + @cres_error (option read_error)))
  (opt : cres_opt RN) (c : DefaultClustering RN) (resample : list (Event RN) -> option (list (Event RN) + option read_error)).
Notation cluster := (default_cluster neutrino hadron delta_r cluster_if true sort c).
Hypothesis Hsort : sort_ok sort.
Hypothesis Hs : reorders shuffle.
Hypothesis Hps : forall x, psum x = Rsum x.
Hypothesis Hres : forall l l', shaped true 1 (map ev_weights l) -> resample l = Some (inl l') ->
  map ev_id l' = map ev_id l /\ map ev_out l' = map ev_out l /\ shaped true 1 (map ev_weights l') /\
  forall k, total (map ev_weights l') k = total (map ev_weights l) k.
Hypothesis Htot : total_step (fun _ => True) resample.
Hypothesis Hmin : 0 <= co_minweight opt.

(** positions of the events with particles *)
Definition with_particles (evs : list (Event RN)) : list nat :=
  filter (fun n => match nth_error evs n with Some e => keeps_particles cluster e | None => false end) (seq 0 (length evs)).

Lemma with_particles_in evs n : In n (with_particles evs) <-> exists e, nth_error evs n = Some e /\ keeps_particles cluster e = true.
Proof.
  unfold with_particles. rewrite filter_In, in_seq. split.
  - intros [_ H]. destruct (nth_error evs n) as [e|]; [|discriminate]. eauto.
  - intros (e & E & K). rewrite E. split; [|exact K]. split; [lia|]. cbn. apply nth_error_Some. congruence.
Qed.

Lemma default_run records evs W :
  Forall2 (fun r ev => try_convert double true [] sort r = inl ev) records evs -> length W = length evs ->
  run_on double true [] sort cluster shuffle resample (unweighter_of psum draws opt) (map inl records) = Wrote W ->
  Forall (fun e => exists w, ev_weights e = [w]) evs /\
  exists survivors dropped, Permutation (survivors ++ dropped) (with_particles evs) /\ NoDup (survivors ++ dropped) /\
    (co_minweight opt = 0 -> dropped = []) /\
    (forall n, In n survivors -> exists w, nth_error W n = Some [w]) /\
    (forall n, (n < length evs)%nat -> ~ In n survivors -> nth_error W n = Some []) /\
    let before n := comp (map ev_weights evs) n 0 in
    let after n := comp (map ev_weights (reweighted_all evs W)) n 0 in
    (co_minweight opt = 0 \/ Rsum (map after survivors) <> 0 ->
     Rsum (map after survivors) = Rsum (map before survivors) + Rsum (map before dropped)).
Proof.
  intros Hcv HlW Hrun.
  assert (Hcl : forall e e' : Event RN, cluster e = Some e' -> ev_weights e' = ev_weights e).
  { intros e e' E. destruct (default_cluster_some neutrino hadron delta_r cluster_if true sort c e) as (e2 & E2 & Hw & _). congruence. }
  unfold run_on in Hrun. rewrite map_map in Hrun. cbn beta iota in Hrun.
  destruct (run_wrote Hs Hsort Hrun) as (Hl1 & evs0 & used & evs1 & evs2 & Hev & Hperm & Hr & Hu & Hid & HWn).
  destruct (clustered_of double true [] sort cluster (or_intror eq_refl) Hcl records evs evs0 Hcv Hev) as (Hw & Hd & H1).
  pose proof (clustered_kept double sort neutrino hadron delta_r cluster_if true c [] records evs evs0 Hcv Hev) as Hk.
  assert (Hsh : shaped true 1 (map ev_weights evs0)) by (rewrite Hw; split; [lia|split; [auto|exact H1]]).
  split.
  { rewrite Forall_map in H1. eapply Forall_impl; [|exact H1]. intros e H. cbn beta in H. destruct (ev_weights e) as [|w [|? ?]]; try discriminate. eauto. }
  pose proof (shaped_used Hsh Hperm) as Hshu. pose proof Hshu as (_ & _ & Hu1). unfold uniform in Hu1. rewrite Forall_map in Hu1.
  assert (Hndu : NoDup (map ev_id used)) by (eapply used_nodup; eauto).
  destruct (Htot used) as (e1 & E1 & F1 & N1 & _).
  { eapply Forall_impl; [|exact Hu1]. intros e H. cbn beta in H. destruct (ev_weights e) as [|w [|? ?]]; try discriminate. exists w. split; [reflexivity|exact I]. }
  { exact Hndu. }
  rewrite E1 in Hr. injection Hr as ->.
  destruct (Hres used evs1 Hshu E1) as (T1 & T2 & T3 & T4).
  destruct (minweight_total psum draws opt Hmin evs1) as (e2 & E2 & F2 & N2 & I2).
  { eapply Forall_impl; [|exact F1]. intros e (w & H). exists w. split; [exact H|exact I]. }
  { exact N1. }
  rewrite E2 in Hu. injection Hu as ->. destruct (HWn N2) as [W1 W2]. clear HWn.
  assert (Hlen : length evs0 = length evs) by (rewrite <- (map_length ev_weights evs0), Hw; apply map_length).
  assert (Hposn : forall n, In n (map ev_id evs1) <-> In n (with_particles evs)).
  { intros n. rewrite T1, with_particles_in. split.
    - intros Hi. apply in_map_iff in Hi. destruct Hi as (e0 & <- & Hi).
      eapply Permutation_in in Hi; [|apply Permutation_sym; exact Hperm]. apply filter_In in Hi. destruct Hi as [Hi Hp].
      apply (events_of_nth Hev) in Hi.
      destruct (nth_error evs (ev_id e0)) as [e|] eqn:Ee.
      2:{ apply nth_error_None in Ee. assert (ev_id e0 < length evs0)%nat by (apply nth_error_Some; congruence). lia. }
      exists e. split; [reflexivity|]. destruct (Forall2_nth _ _ _ _ _ Hk _ _ Ee) as (e' & E' & K). rewrite Hi in E'. injection E' as <-. congruence.
    - intros (e & Ee & K). destruct (Forall2_nth _ _ _ _ _ Hk _ _ Ee) as (e0 & E0 & K').
      assert (Hin : In e0 evs0) by (eapply nth_error_In; eauto).
      assert (ev_id e0 = n).
      { pose proof (events_of_ids Hev) as Y.
        pose proof (map_nth_error ev_id _ _ E0) as Z. rewrite Y, <- (proj1 Hev), nth_error_seq in Z by (apply nth_error_Some; congruence).
        injection Z as Z. cbn in Z. symmetry. exact Z. }
      subst n. apply in_map. eapply Permutation_in; [exact Hperm|]. apply filter_In. split; [exact Hin|congruence]. }
  set (dropped := filter (fun n => if in_dec Nat.eq_dec n (map ev_id evs2) then false else true) (map ev_id evs1)).
  assert (Hdr : forall n, In n dropped <-> In n (map ev_id evs1) /\ ~ In n (map ev_id evs2)).
  { intros n. unfold dropped. rewrite filter_In. destruct (in_dec Nat.eq_dec n (map ev_id evs2)); intuition discriminate. }
  assert (Hndd : NoDup (map ev_id evs2 ++ dropped)).
  { apply (proj2 (nodup_app_iff _ _)). split; [exact N2|]. split; [apply NoDup_filter; exact N1|]. intros n A B. apply Hdr in B. tauto. }
  assert (Hp1 : Permutation (map ev_id evs2 ++ dropped) (map ev_id evs1)).
  { apply NoDup_Permutation; [exact Hndd|exact N1|]. intros n. rewrite in_app_iff, Hdr. split.
    - intros [H|[H _]]; [apply I2; exact H|exact H].
    - intros H. destruct (in_dec Nat.eq_dec n (map ev_id evs2)); tauto. }
  assert (Hp2 : Permutation (map ev_id evs2 ++ dropped) (with_particles evs)).
  { apply NoDup_Permutation; [exact Hndd|unfold with_particles; apply NoDup_filter, seq_NoDup|]. intros n. rewrite <- Hposn. split; intros H; eapply Permutation_in; try eassumption.
    apply Permutation_sym; exact Hp1. }
  assert (Hlr : length (map (@inl _ (option read_error)) records) = length evs) by (rewrite map_length; exact (Forall2_len _ _ _ _ _ Hcv)).
  exists (map ev_id evs2), dropped. split; [exact Hp2|]. split; [exact Hndd|]. split; [|split; [|split]].
  - intros Hm. assert (evs2 = evs1) as ->.
    { unfold unweighter_of, lib_unweight, unweight in E2. assert (Q : neqb (n := RN) (co_minweight opt) n0 = true) by (apply Reqb_true; exact Hm). rewrite Q in E2.
      cbn [orb] in E2. injection E2 as <-. reflexivity. }
    destruct dropped as [|n l] eqn:Ed; [reflexivity|]. exfalso. assert (In n (n :: l)) as H by (left; reflexivity). apply Hdr in H. tauto.
  - intros n Hn. apply in_map_iff in Hn. destruct Hn as (e & <- & He). rewrite Forall_forall in F2. destruct (F2 e He) as (w & Ew). exists w.
    refine (eq_trans (W1 e He) _). rewrite Ew. reflexivity.
  - intros n Hn Hni. apply W2; [|exact Hni]. rewrite <- Hlr in Hn. exact Hn.
  - cbv zeta. intros Hne. 
    assert (Ha : Rsum (map (fun n => comp (map ev_weights (reweighted_all evs W)) n 0) (map ev_id evs2)) = Rsum (map cw evs2)).
    { rewrite map_map. apply Rsum_map_ext. intros e He. unfold comp. rewrite reweighted_written by exact HlW.
      assert (Hlt : (ev_id e < length evs)%nat) by (rewrite <- Hlr; exact (Hid e He)).
      rewrite written_nth; [|rewrite map_length; exact HlW|rewrite map_length; exact Hlt].
      pose proof (nth_error_nth _ _ [] (W1 e He)) as X. refine (eq_trans (f_equal (fun ws => nth 0 (written_weights (N := RN) _ ws) 0) X) _).
      rewrite Forall_forall in F2. destruct (F2 e He) as (w & Ew). unfold written_weights, cw. rewrite Ew. reflexivity. }
    rewrite Ha in *.
    assert (Hb : Rsum (map (fun n => comp (map ev_weights evs) n 0) (map ev_id evs2 ++ dropped)) = Rsum (map cw evs1)).
    { rewrite <- !total_cw, T4. rewrite (Rsum_perm (Permutation_map _ Hp1)). rewrite T1, map_map. unfold total. rewrite map_map. apply Rsum_map_ext. intros e Hi.
      eapply Permutation_in in Hi; [|apply Permutation_sym; exact Hperm]. apply filter_In in Hi. destruct Hi as [Hi _].
      apply (events_of_nth Hev) in Hi. unfold comp. rewrite <- Hw. f_equal. apply (nth_error_nth (map ev_weights evs0) (ev_id e) []). apply map_nth_error. exact Hi. }
    rewrite <- Rsum_app, <- map_app, Hb.
    destruct (Req_EM_T (co_minweight opt) 0) as [E0|E0].
    + unfold unweighter_of, lib_unweight, unweight in E2. assert (Q : neqb (n := RN) (co_minweight opt) n0 = true) by (apply Reqb_true; exact E0). rewrite Q in E2.
      cbn [orb] in E2. injection E2 as <-. reflexivity.
    + destruct Hne as [Hne|Hne]; [contradiction|]. unfold unweighter_of, lib_unweight in E2. destruct (unweight psum (co_minweight opt) draws evs1) as [[x kk]|] eqn:Eu; [|discriminate].
      injection E2 as ->. eapply unweight_total; eauto. eapply shaped_nonempty. exact T3.
Qed.

(** position by position *)
Lemma reweighted_comp (evs : list (Event RN)) W n e ws : nth_error evs n = Some e -> nth_error W n = Some ws ->
  nth_error (reweighted_all evs W) n = Some (reweighted e ws).
Proof.
  unfold reweighted_all. revert W n. induction evs as [|e0 evs IH]; intros [|w W] [|n] He HW; try discriminate.
  - injection He as <-. injection HW as <-. reflexivity.
  - cbn in *. apply IH; assumption.
Qed.
End Default.

Lemma reweighted_nil (e : Event RN) : reweighted e [] = e.
Proof. destruct e. reflexivity. Qed.

Section Conclusions.
Context (evs : list (Event RN)) (W : list (list RN)) (keeps : Event RN -> bool) (survivors dropped : list nat).
Notation evs' := (reweighted_all evs W).
Notation before n := (comp (map ev_weights evs) n 0).
Notation after n := (comp (map ev_weights evs') n 0).
Hypothesis HlW : length W = length evs.
Hypothesis Hnd : NoDup (survivors ++ dropped).
Hypothesis Hpos : forall n, In n (survivors ++ dropped) <-> exists e, nth_error evs n = Some e /\ keeps e = true.
Hypothesis Hin : forall n, In n survivors -> exists w, nth_error W n = Some [w].
Hypothesis Hout : forall n, (n < length evs)%nat -> ~ In n survivors -> nth_error W n = Some [].

Lemma unchanged n : ~ In n survivors -> nth_error evs' n = nth_error evs n.
Proof.
  intros Hn. destruct (nth_error evs n) as [e|] eqn:E.
  - assert (n < length evs)%nat by (apply nth_error_Some; congruence).
    rewrite (reweighted_comp evs W n e [] E (Hout n H Hn)), reweighted_nil. reflexivity.
  - apply nth_error_None. apply nth_error_None in E. unfold reweighted_all. rewrite map_length, combine_length. lia.
Qed.
Lemma comp_of (l : list (Event RN)) n e : nth_error l n = Some e -> comp (map ev_weights l) n 0 = nth 0 (ev_weights e) 0.
Proof. intros E. unfold comp. exact (f_equal (fun ws => nth 0 ws 0) (nth_error_nth (map ev_weights l) n [] (map_nth_error ev_weights n l E))). Qed.
Lemma comp_none (l : list (Event RN)) n : nth_error l n = None -> comp (map ev_weights l) n 0 = 0.
Proof. intros E. unfold comp. apply nth_error_None in E. rewrite (nth_overflow (map ev_weights l)); [reflexivity|]. rewrite map_length. exact E. Qed.
Lemma comp_same (l l' : list (Event RN)) n : nth_error l n = nth_error l' n -> comp (map ev_weights l) n 0 = comp (map ev_weights l') n 0.
Proof.
  intros E. destruct (nth_error l' n) as [e|] eqn:E'; [rewrite (comp_of l n e E), (comp_of l' n e E'); reflexivity|].
  rewrite (comp_none l n E), (comp_none l' n E'). reflexivity.
Qed.

Lemma one_weight : Forall (fun e => exists w, ev_weights e = [w]) evs -> Forall (fun e => exists w, ev_weights e = [w]) evs'.
Proof.
  intros H. rewrite Forall_forall in *. intros e' He. apply In_nth_error in He. destruct He as [n He].
  destruct (in_dec Nat.eq_dec n survivors) as [Hi|Hi].
  - destruct (Hin n Hi) as [w Hw]. destruct (nth_error evs n) as [e|] eqn:E.
    + rewrite (reweighted_comp evs W n e [w] E Hw) in He. injection He as <-. exists w. reflexivity.
    + apply nth_error_None in E. rewrite <- HlW in E. apply nth_error_None in E.
      pose proof (eq_trans (eq_sym Hw) E) as X. discriminate X.
  - rewrite (unchanged n Hi) in He. apply H. eapply nth_error_In. exact He.
Qed.

Lemma sums : Rsum (map (fun e => nth 0 (ev_weights e) 0) evs')
  = Rsum (map (fun e => nth 0 (ev_weights e) 0) evs) + Rsum (map (fun n => after n) survivors) - Rsum (map (fun n => before n) survivors).
Proof.
  assert (Q : forall l : list (Event RN), Rsum (map (fun e => nth 0 (ev_weights e) 0) l) = Rsum (map (fun n => comp (map ev_weights l) n 0) (seq 0 (length l)))).
  { intros l. pose proof (total_index (map ev_weights l) 0) as T. unfold total in T. rewrite map_map, map_length in T. exact T. }
  rewrite !Q. unfold reweighted_all at 2. rewrite map_length, combine_length, HlW, Nat.min_id.
  pose proof (@Rsum_change (length evs) survivors (fun n => after n) (fun n => before n)) as C. cbv beta in C.
  apply (proj1 (nodup_app_iff _ _)) in Hnd. destruct Hnd as (N1 & _). specialize (C N1).
  assert (X : forall n, In n survivors -> (n < length evs)%nat).
  { intros n Hn. destruct (proj1 (Hpos n) (in_or_app _ _ _ (or_introl Hn))) as (e & E & _). apply nth_error_Some. congruence. }
  specialize (C X). assert (Y : forall n, ~ In n survivors -> after n = before n) by (intros n Hn; apply comp_same, unchanged; exact Hn).
  specialize (C Y). lra.
Qed.

Lemma observables f : dropped = [] -> 
  observable f (map ev_weights evs') 0 - observable f (map ev_weights evs) 0 =
  observable f W 0 - observable f (map (fun e => if keeps e then ev_weights e else [0]) evs) 0.
Proof.
  intros Hd. unfold observable. rewrite !map_length. unfold reweighted_all at 2. rewrite map_length, combine_length.
  match goal with |- context [Nat.min ?a ?b] => replace (Nat.min a b) with (length evs) by (symmetry; rewrite Nat.min_l by (rewrite HlW; reflexivity); reflexivity) end.
  change (@length (list R) W) with (length W).
  replace (length W) with (length evs) by (symmetry; exact HlW).
  assert (S : forall (g h : nat -> R) l, Rsum (map g l) - Rsum (map h l) = Rsum (map (fun i => g i - h i) l)).
  { intros g h l. induction l as [|a l IH]; unfold Rsum in *; cbn [map fold_right]; [lra|]. rewrite <- IH. lra. }
  rewrite !S. apply Rsum_map_ext. intros n Hn. apply in_seq in Hn. cbn in Hn. destruct Hn as [_ Hn].
  change (nth 0 (nth n (map ev_weights evs') []) 0) with (after n). change (nth 0 (nth n (map ev_weights evs) []) 0) with (before n).
  destruct (nth_error evs n) as [e|] eqn:E; [|apply nth_error_None in E; lia].
  rewrite (comp_of evs n e E).
  match goal with |- _ = f n * ?w - f n * ?d => assert (K : d = nth 0 (if keeps e then ev_weights e else [0]) 0); [|rewrite K; set (wn := w)] end.
  { exact (f_equal (fun ws => nth 0 ws 0) (nth_error_nth _ n [] (map_nth_error (fun e => if keeps e then ev_weights e else [0]) n evs E))). }
  subst dropped. rewrite app_nil_r in Hpos.
  destruct (in_dec Nat.eq_dec n survivors) as [Hi|Hi].
  - destruct (proj1 (Hpos n) Hi) as (e1 & E1 & Ke). rewrite E in E1. injection E1 as <-. rewrite Ke.
    destruct (Hin n Hi) as [w Hw]. rewrite (comp_of evs' n _ (reweighted_comp evs W n e [w] E Hw)).
    assert (Z : wn = w) by exact (f_equal (fun ws => nth 0 ws 0) (nth_error_nth W n [] Hw)). rewrite Z. reflexivity.
  - assert (Ke : keeps e = false).
    { destruct (keeps e) eqn:Ke; [|reflexivity]. exfalso. apply Hi. apply Hpos. eauto. }
    rewrite Ke. pose proof (unchanged n Hi) as U. rewrite E in U. rewrite (comp_of evs' n e U).
    assert (Z : wn = 0) by exact (f_equal (fun ws => nth 0 ws 0) (nth_error_nth W n [] (Hout n Hn Hi))). rewrite Z. cbn [nth]. lra.
Qed.
End Conclusions.
