(** Property C74, continued: what the option for the minimum weight changes. *)
From Coq Require Import Reals Lra List Arith Lia Permutation Ascii Bool ZArith.
From Verif Require Import Base BaseProofs Num ModelEvent SpecEvent EventProofs ModelText SpecText SpecFormats TextProofs ModelHepMC ModelLHEF ModelStripper ModelIO IOProofs FormatProofs FileProofs2 FileProofs3
  TextExamples PropsHepMC PropsFormats PropsRecord
  ModelSeeds ModelCell ModelNaive NaiveProofs SpecTree ModelVPTree VPTreeProofs2 SpecSearch RunProofs2 ModelResampler ModelDistance SpecDistance DistanceProofs DistanceProofs2
  ModelCluster ModelOpt SpecOpt ModelUnweight SpecUnweight ModelCres SpecCres SpecWeights CresProofs CresProofs2 ModelMain SpecMain MainProofs MainProofs2 MainProofs3 SpecPanic PanicProofs2 ModelProgram ProgramProofs ProgramProofs2
  PropsTree PropsOpt PropsMain PropsPanic PropsProgram SumProofs SpecLocal LocalProofs LocalProofs2 PropsLocal ProgramProofs3.
Import ListNotations.
Local Open Scope R_scope.

(** the same options without unweighting *)
Definition no_minweight (opt : cres_opt RN) : cres_opt RN :=
  mkCresOpt (co_cluster opt) 0 (co_ptweight opt) (co_search opt) (co_strategy opt) (co_max_cell_size opt).

(** a weight below [m] is lifted to [m], keeping its sign *)
Definition lifted (m w : R) : R := if Rlt_dec (Rabs w) m then w * (m / Rabs w) else w.

Lemma run_unweighted double sort MAX km neutrino hadron delta_r cluster_if choose psum draws shuffle (opt : cres_opt RN) c records evs W W0 :
  sort_ok sort -> choose_ok choose -> reorders shuffle -> 0 < co_minweight opt -> (forall k, 0 <= draws k) ->
  Forall2 (fun r ev => try_convert double false [] sort r = inl ev) records evs ->
  let cluster := default_cluster neutrino hadron delta_r cluster_if false sort c in
  run_on double false [] sort cluster shuffle (resampler_of sort MAX km choose opt) (unweighter_of psum draws opt) (map inl records) = Wrote W ->
  run_on double false [] sort cluster shuffle (resampler_of sort MAX km choose (no_minweight opt)) (unweighter_of psum draws (no_minweight opt)) (map inl records) = Wrote W0 ->
  exists r, forall i, (i < length evs)%nat -> exists w w0, nth_error W i = Some [w] /\ nth_error W0 i = Some [w0] /\
    (w = r * lifted (co_minweight opt) w0 /\ w0 <> 0 \/ w = 0 /\ Rabs w0 <= co_minweight opt /\ exists k, Rabs w0 <= draws k).
Proof.
  intros Hsort Hch Hs Hmin Hdr Hcv cluster H H0.
  pose proof (cluster_weights sort neutrino hadron delta_r cluster_if c) as Hcl. fold cluster in Hcl.
  unfold run_on in H, H0. rewrite map_map in H, H0. cbn beta iota in H, H0.
  change (resampler_of sort MAX km choose (no_minweight opt)) with (resampler_of sort MAX km choose opt) in H0.
  destruct (run_shared _ _ _ _ _ _ _ _ _ _ _ _ _ Hs Hsort H H0) as (evs0 & used & evs1 & Hev & Hperm & Hr & Hall).
  destruct (clustered_of double false [] sort cluster (or_introl eq_refl) Hcl records evs evs0 Hcv Hev) as (Hw & Hd & H1).
  assert (Hsh : shaped false 1 (map ev_weights evs0)) by (rewrite Hw; split; [lia|split; [auto|exact H1]]).
  pose proof (shaped_used Hsh Hperm) as (_ & _ & Hu1). unfold uniform in Hu1. rewrite Forall_map in Hu1.
  destruct (lib_resample_total RN (option read_error) (fun _ => True) false sort (co_strategy opt) (search_of sort choose opt) (distance_of sort km opt)
    (match co_max_cell_size opt with Some max => max | None => MAX end) Hsort RN_order (fun l => search_valid sort km choose opt Hsort Hch l _) used) as (e1 & E1 & F1 & N1 & _).
  { eapply Forall_impl; [|exact Hu1]. intros e X. cbn beta in X. destruct (ev_weights e) as [|w [|? ?]]; try discriminate. exists w. split; [reflexivity|exact I]. }
  { eapply used_nodup; eauto. }
  unfold resampler_of in Hr. rewrite E1 in Hr. injection Hr as ->.
  destruct (Hall _ _ H) as (LW & evs2 & U2 & T2). destruct (Hall _ _ H0) as (LW0 & evs3 & U3 & T3). clear Hall.
  assert (evs3 = evs1) as ->.
  { unfold unweighter_of, lib_unweight, unweight in U3. assert (Q : neqb (co_minweight (no_minweight opt)) n0 = true) by (apply Reqb_true; reflexivity). rewrite Q in U3. injection U3 as <-. reflexivity. }
  unfold unweighter_of, lib_unweight in U2. destruct (unweight psum (co_minweight opt) draws evs1) as [[out k]|] eqn:Eu; [|discriminate]. injection U2 as ->.
  assert (Hne : Forall (fun e => ev_weights e <> []) evs1).
  { eapply Forall_impl; [|exact F1]. intros e (w & ->). discriminate. }
  destruct (unweight_rel psum (co_minweight opt) draws evs1 evs2 k Hmin Hne Eu) as (r & kept & Eo & I1 & I2 & I3).
  assert (Eid : map ev_id evs2 = map ev_id kept) by (rewrite Eo, map_map; reflexivity).
  assert (N2 : NoDup (map ev_id evs2)) by (rewrite Eid; auto).
  destruct (T2 N2) as [A1 A2]. destruct (T3 N1) as [B1 B2].
  assert (Hlr : length evs = length (map (fun x : event_record => @inl event_record (option read_error) x) records)).
  { rewrite map_length. exact (eq_sym (Forall2_len _ _ _ _ _ Hcv)). }
  exists r. intros i Hi. rewrite Hlr in Hi.
  destruct (in_dec Nat.eq_dec i (map ev_id evs1)) as [Hin|Hin].
  - apply in_map_iff in Hin. destruct Hin as (e & <- & He). rewrite Forall_forall in F1. destruct (F1 e He) as [w0 Ew0].
    assert (Hcw : cw e = w0) by (unfold cw; rewrite Ew0; reflexivity).
    destruct (in_dec Nat.eq_dec (ev_id e) (map ev_id kept)) as [Hk|Hk].
    + apply in_map_iff in Hk. destruct Hk as (e' & Ei & He').
      assert (e' = e) as ->.
      { assert (U : forall (l : list (Event RN)) x y, NoDup (map ev_id l) -> In x l -> In y l -> ev_id x = ev_id y -> x = y).
        { induction l as [|z l IH]; intros x y Hn Hx Hy Hxy; [destruct Hx|]. cbn [map] in Hn. inversion Hn as [|? ? Hn1 Hn2]; subst.
          destruct Hx as [<-|Hx], Hy as [<-|Hy]; auto; exfalso; apply Hn1; [rewrite Hxy|rewrite <- Hxy]; apply in_map; assumption. }
        apply (U evs1); auto. }
      exists (w0 * (boost (co_minweight opt) e * r)), w0. split; [|split].
      * assert (X : In (scaled (boost (co_minweight opt) e * r) e) evs2) by (rewrite Eo; apply (in_map (fun e => scaled (boost (co_minweight opt) e * r) e)); exact He').
        specialize (A1 _ X). unfold scaled in A1. cbn [ev_id ev_weights] in A1. rewrite Ew0 in A1. exact A1.
      * refine (eq_trans (B1 e He) _). exact (f_equal Some Ew0).
      * destruct (Req_dec w0 0) as [Z|Z].
        -- right. split; [rewrite Z; apply Rmult_0_l|]. rewrite Z, Rabs_R0. split; [left; exact Hmin|]. exists 0%nat. apply Hdr.
        -- left. split; [|exact Z]. unfold lifted, boost. rewrite Hcw. unfold Rltb. destruct (Rlt_dec (Rabs w0) (co_minweight opt)); [|match goal with |- ?a = ?b => change (a = b :> R) end; ring].
           match goal with |- ?a = ?b => change (a = b :> R) end. ring.
    + exists 0, w0. split; [|split].
      * apply A2; [exact Hi|]. rewrite Eid. exact Hk.
      * refine (eq_trans (B1 e He) _). exact (f_equal Some Ew0).
      * right. split; [reflexivity|]. destruct (I2 e He) as [X|X]; [exfalso; apply Hk; apply in_map; exact X|]. rewrite Hcw in X. exact X.
  - exists 0, 0. split; [|split].
    + apply A2; [exact Hi|]. rewrite Eid. intros X. apply Hin. apply in_map_iff in X. destruct X as (e & <- & He). apply in_map. apply I1. exact He.
    + apply B2; assumption.
    + right. split; [reflexivity|]. rewrite Rabs_R0. split; [left; exact Hmin|]. exists 0%nat. apply Hdr.
Qed.

(** the run depends on the records only through the events *)
Lemma run_records double mw names sort cluster shuffle resample unweighter ra rb (evs : list (Event RN)) :
  Forall2 (fun r ev => try_convert double mw names sort r = inl ev) ra evs -> Forall2 (fun r ev => try_convert double mw names sort r = inl ev) rb evs ->
  run_on double mw names sort cluster shuffle resample unweighter (map inl ra) = run_on double mw names sort cluster shuffle resample unweighter (map inl rb).
Proof.
  intros Ha Hb. unfold run_on. rewrite !map_map. unfold cres_run, read_events.
  assert (E : forall k, read_loop (fun _ : event_record => false) (try_convert double mw names sort) (try_cluster cluster) k (map (fun x => @inl event_record (option read_error) x) ra)
    = read_loop (fun _ : event_record => false) (try_convert double mw names sort) (try_cluster cluster) k (map (fun x => @inl event_record (option read_error) x) rb)).
  { revert rb Hb. induction Ha as [|r e ra evs Hr _ IH]; intros rb Hb k; inversion Hb as [|r' ? rb' ? Hr' Hb']; subst; [reflexivity|].
    cbn [map read_loop]. rewrite (IH rb' Hb' (S k)). unfold treat. rewrite Hr, Hr'. reflexivity. }
  rewrite (E 0%nat). reflexivity.
Qed.
Lemma run_total_kept_gen resample double sort neutrino hadron delta_r cluster_if psum draws shuffle (opt : cres_opt RN) c records evs W :
  (forall l l', shaped false 1 (map ev_weights l) -> resample l = Some (inl l') ->
    map ev_id l' = map ev_id l /\ map ev_out l' = map ev_out l /\ shaped false 1 (map ev_weights l') /\
    forall k, total (map ev_weights l') k = total (map ev_weights l) k) ->
  sort_ok sort -> reorders shuffle -> (forall l, psum l = Rsum l) -> length W = length evs ->
  Forall2 (fun r ev => try_convert double false [] sort r = inl ev) records evs ->
  let cluster := default_cluster neutrino hadron delta_r cluster_if false sort c in
  run_on double false [] sort cluster shuffle resample (unweighter_of psum draws opt) (map inl records) = Wrote W ->
  co_minweight opt = 0 \/ total (map ev_weights (reweighted_all evs W)) 0 <> 0 ->
  total (map ev_weights (reweighted_all evs W)) 0 = total (map ev_weights evs) 0 - total (map ev_weights (filter (fun e => negb (keeps_particles cluster e)) evs)) 0.
Proof.
  intros Hres Hsort Hs Hps HlW Hcv cluster Hrun. unfold run_on in Hrun. rewrite map_map in Hrun. cbn beta iota in Hrun.
  pose proof (cluster_weights sort neutrino hadron delta_r cluster_if c) as Hcl. fold cluster in Hcl.
  destruct (run_wrote Hs Hsort Hrun) as (Hl1 & evs0 & used & evs1 & evs2 & Hev & Hperm & Hr & Hu & Hid & HWn).
  destruct (clustered_of double false [] sort cluster (or_introl eq_refl) Hcl records evs evs0 Hcv Hev) as (Hw & Hd & H1).
  assert (Hsh : shaped false 1 (map ev_weights evs0)) by (rewrite Hw; split; [lia|split; [auto|exact H1]]).
  assert (E : map ev_weights (reweighted_all evs W) = written (map ev_weights evs0) W).
  { rewrite Hw. clear -HlW. unfold reweighted_all, written. revert W HlW. induction evs as [|e evs IH]; intros [|w W] Hl; try discriminate; [reflexivity|].
    cbn [combine map]. f_equal. apply IH. injection Hl as Hl. exact Hl. }
  rewrite E, <- Hw, <- Hd. intros Hm. 
  destruct (Req_EM_T (co_minweight opt) 0) as [E0|E0].
  + rewrite (run_ext RN _ _ _ _ _ false sort shuffle resample (unweighter_of psum draws opt) lib_no_unweight) in Hrun.
    * eapply (run_total_no_unweight_gen (mw := false)); eauto.
    * intros l. unfold unweighter_of, lib_unweight, unweight. assert (Q : neqb (co_minweight opt) n0 = true) by (apply Reqb_true; exact E0). rewrite Q. reflexivity.
  + destruct Hm as [Hm|Hm]; [contradiction|]. eapply run_total_unweight_gen; eauto.
Qed.
Lemma run_total_kept double sort MAX km neutrino hadron delta_r cluster_if choose psum draws shuffle (opt : cres_opt RN) c records evs W :
  sort_ok sort -> reorders shuffle -> (forall l, psum l = Rsum l) -> length W = length evs ->
  Forall2 (fun r ev => try_convert double false [] sort r = inl ev) records evs ->
  let cluster := default_cluster neutrino hadron delta_r cluster_if false sort c in
  run_on double false [] sort cluster shuffle (resampler_of sort MAX km choose opt) (unweighter_of psum draws opt) (map inl records) = Wrote W ->
  co_minweight opt = 0 \/ total (map ev_weights (reweighted_all evs W)) 0 <> 0 ->
  total (map ev_weights (reweighted_all evs W)) 0 = total (map ev_weights evs) 0 - total (map ev_weights (filter (fun e => negb (keeps_particles cluster e)) evs)) 0.
Proof.
  apply run_total_kept_gen. intros l l'. apply lib_resample_facts.
Qed.
(** Compare two runs of the program with the same options, except that one has a minimum weight
    [m > 0] and the other none.  Both succeed.  At each position, the event has either been dropped
    (weight zero), in which case the weight [w0] without unweighting is at most [m] and at most
    some random number, or it has the lifted weight times a factor common to all events.  The sum
    of weights is the same, unless it is zero; this fixes the common factor. *)
Theorem C74_unweighting : forall (D : R -> Prop) (double : parser RN) show xml checks sort MAX km neutrino hadron delta_r cluster_if choose psum draws shuffle
    opt inputs files tags evs fuel,
  number_text RN D double show -> stops_at_tag xml -> reorders shuffle -> sort_ok sort -> choose_ok choose -> km_ok km ->
  (forall l, psum l = Rsum l) -> (forall k, 0 <= draws k) -> 0 < co_minweight opt -> consistent (co_cluster opt) ->
  event_files xml inputs = Ok (files, tags) ->
  Forall (well_formed D double xml checks (extract_scaling tags)) files ->
  reads double show xml checks false [] sort inputs evs -> (length evs < fuel)%nat ->
  let program := cres_main double show xml checks sort MAX km neutrino hadron delta_r cluster_if choose psum draws shuffle fuel in
  exists outs outs0 W W0,
    program opt inputs = Done outs /\ program (no_minweight opt) inputs = Done outs0 /\ length W = length evs /\ length W0 = length evs /\
    (Forall (writable D (extract_scaling tags)) W -> Forall (writable D (extract_scaling tags)) W0 ->
     exists evs' evs0', reads double show xml checks false [] sort (replace_events xml inputs outs) evs' /\
       reads double show xml checks false [] sort (replace_events xml inputs outs0) evs0' /\
       map ev_weights evs' = W /\ map ev_weights evs0' = W0 /\
       (exists r, forall i, (i < length evs)%nat -> exists w w0, nth_error W i = Some [w] /\ nth_error W0 i = Some [w0] /\
         (w = r * lifted (co_minweight opt) w0 /\ w0 <> 0 \/ w = 0 /\ Rabs w0 <= co_minweight opt /\ exists k, Rabs w0 <= draws k)) /\
       let sum l := Rsum (map (fun e => nth 0 (ev_weights e) 0) l) in (sum evs' <> 0 -> sum evs' = sum evs0')).
Proof.
  intros D double show xml checks sort MAX km neutrino hadron delta_r cluster_if choose psum draws shuffle opt inputs files tags evs fuel
    HT Hx Hs Hsort Hch Hkm Hps Hdr Hmin Hopt He Hwf Hread Hfuel program.
  destruct (proj1 (C48_options RN (co_cluster opt)) Hopt) as (c & Ec & Hc).
  set (cluster := default_cluster neutrino hadron delta_r cluster_if false sort c).
  (* the runs behind the outputs *)
  assert (Q : forall o, 0 <= co_minweight o -> co_cluster o = co_cluster opt -> exists outs W, program o inputs = Done outs /\ length W = length evs /\
    (exists records, Forall2 (fun r ev => try_convert double false [] sort r = inl ev) records evs /\
       run_on double false [] sort cluster shuffle (resampler_of sort MAX km choose o) (unweighter_of psum draws o) (map inl records) = Wrote W) /\
    (Forall (writable D (extract_scaling tags)) W -> reads double show xml checks false [] sort (replace_events xml inputs outs) (reweighted_all evs W))).
  { intros o Ho Eo.
    destruct (C71_total_correctness RN D (fun _ => True) double show xml checks false [] sort cluster shuffle
      (resampler_of sort MAX km choose o) (unweighter_of psum draws o) inputs files tags evs fuel) as (outs' & W' & Hp & Hlo & HlW & Hrun & Hout); try assumption; auto using kind_true.
    { intros e. apply (default_cluster_some neutrino hadron delta_r cluster_if false sort c e). }
    { apply lib_resample_total; [exact Hsort|exact RN_order|]. intros l. apply search_valid; assumption. }
    { apply minweight_total. exact Ho. }
    exists outs', W'. split; [unfold program, cres_main; rewrite Eo, Ec; exact Hp|]. auto. }
  destruct (Q opt (or_introl Hmin) eq_refl) as (oa & Wa & Pa & La & (ra & Ra & Sa) & Oa).
  destruct (Q (no_minweight opt) (or_intror eq_refl) eq_refl) as (ob & Wb & Pb & Lb & (rb & Rb & Sb) & Ob). clear Q.

  rewrite (run_records double false [] sort cluster shuffle _ _ rb ra evs Rb Ra) in Sb. clear rb Rb.
  exists oa, ob, Wa, Wb. split; [exact Pa|]. split; [exact Pb|]. split; [exact La|]. split; [exact Lb|]. intros HWa HWb.
  exists (reweighted_all evs Wa), (reweighted_all evs Wb). split; [exact (Oa HWa)|]. split; [exact (Ob HWb)|].
  pose proof (written_one double sort MAX km neutrino hadron delta_r cluster_if choose psum draws shuffle opt c ra evs Wa Hsort Hch Hs (or_introl Hmin) Ra Sa) as Ha1.
  pose proof (written_one double sort MAX km neutrino hadron delta_r cluster_if choose psum draws shuffle (no_minweight opt) c ra evs Wb Hsort Hch Hs (or_intror eq_refl) Ra Sb) as Hb1.
  assert (EW : forall W, length W = length evs -> Forall (fun ws => exists w, ws = [w]) W -> map ev_weights (reweighted_all evs W) = W).
  { clear. intros W HlW Hone. unfold reweighted_all. revert W HlW Hone. induction evs as [|e evs IH]; intros [|w W] Hl Ho; try discriminate; [reflexivity|].
    inversion Ho as [|? ? (w0 & ->) Ho']; subst. cbn [combine map]. apply f_equal2; [reflexivity|]. apply IH; [|exact Ho']. injection Hl as Hl. exact Hl. }
  split; [exact (EW Wa La Ha1)|]. split; [exact (EW Wb Lb Hb1)|]. split.
  { exact (run_unweighted double sort MAX km neutrino hadron delta_r cluster_if choose psum draws shuffle opt c ra evs Wa Wb Hsort Hch Hs Hmin Hdr Ra Sa Sb). }
  cbn zeta. intros Hsum.
  assert (Q : forall l : list (Event RN), Rsum (map (fun e => nth 0 (ev_weights e) 0) l) = total (map ev_weights l) 0) by (intros l; unfold total; rewrite map_map; reflexivity).
  refine (eq_trans (Q _) (eq_trans _ (eq_sym (Q _)))).
  rewrite (run_total_kept double sort MAX km neutrino hadron delta_r cluster_if choose psum draws shuffle opt c ra evs Wa Hsort Hs Hps La Ra Sa).
  - symmetry. apply (run_total_kept double sort MAX km neutrino hadron delta_r cluster_if choose psum draws shuffle (no_minweight opt) c ra evs Wb Hsort Hs Hps Lb Ra Sb).
    left. reflexivity.
  - right. intros X. apply Hsum. refine (eq_trans (Q _) X).
Qed.
Print Assumptions C74_unweighting.


(** *** The run of C74_case with minimum weight 3: of the two events with weight 2 the first is kept
    (random number 1) and the second is dropped (random number 5/2) *)
Definition u_opt : cres_opt RN := mkCresOpt (co_cluster p_opt) 3 0 Tree MostNegative None.
Definition u_draws (k : nat) : R := match k with 0%nat => 1 | _ => 5 / 2 end.
Lemma u_unweight o1 o2 : unweighter_of Rsum u_draws u_opt [mkEvent (N := RN) 0 [2] o1; mkEvent 1 [2] o2] = Some (inl [mkEvent (N := RN) 0 [4] o1]).
Proof.
  unfold unweighter_of, lib_unweight, unweight. change (co_minweight u_opt) with 3.
  assert (Q : neqb (n := RN) 3 n0 = false) by (cbn; unfold Reqb; destruct (Req_EM_T 3 0); [lra|reflexivity]). rewrite Q. cbn [orb length Nat.eqb omap ev_weight central ev_weights nth_error].
  assert (Q1 : nltb (n := RN) n0 3 = true) by (apply Rltb_true; cbn; lra). rewrite Q1. cbn [negb retain_loop ev_weight central ev_weights nth_error].
  assert (Q2 : nabs (n := RN) 2 = 2) by (cbn; apply Rabs_pos_eq; lra). rewrite Q2.
  assert (Q3 : nltb (n := RN) 3 2 = false) by (apply Rltb_false; lra). rewrite Q3.
  assert (Q4 : nltb (n := RN) (u_draws 0) 2 = true) by (apply Rltb_true; cbn; lra). rewrite Q4.
  assert (Q5 : nltb (n := RN) (u_draws 1) 2 = false) by (apply Rltb_false; cbn; lra). rewrite Q5.
  cbn [omap lift_weight ev_weight central ev_weights nth_error]. unfold lift_weight. cbn [ev_weight central ev_weights nth_error]. unfold ev_weight, central. cbn [ev_weights nth_error]. rewrite Q2.
  assert (Q6 : nltb (n := RN) 2 3 = true) by (apply Rltb_true; lra). rewrite Q6. 
  unfold rescale_weights. cbn [ev_id ev_weights ev_out map omap nth_error]. unfold Rsum. cbn [fold_right map nmul ndiv RN].
  apply (f_equal (fun w => Some (inl [mkEvent (N := RN) 0 [w] o1]))). match goal with |- ?a = ?b => change (a = b :> R) end. field.
Qed.
Example C74_unweighting_case :
  0 < co_minweight u_opt /\ (forall k, 0 <= u_draws k) /\ consistent (co_cluster u_opt) /\
  run_on r_double false [] isort p_cluster r_ids (resampler_of isort 100 km_brute first_min u_opt) (unweighter_of Rsum u_draws u_opt) (map inl r_records) = Wrote [[4]; [0]; [0]] /\
  run_on r_double false [] isort p_cluster r_ids (resampler_of isort 100 km_brute first_min (no_minweight u_opt)) (unweighter_of Rsum u_draws (no_minweight u_opt)) (map inl r_records)
    = Wrote [[2]; [2]; [0]] /\
  Forall (writable integer []) [[4]; [0]; [0]].
Proof.
  split; [cbn; lra|]. split; [intros [|k]; cbn; lra|]. split; [split; right; auto|]. split; [|split].
  - unfold run_on, cres_run. set (ev := read_events _ _ _ _ _).
    assert (E : ev = inl [mkEvent 0 [5 : RN] r_out; mkEvent 1 [(-1) : RN] r_out; mkEvent 2 [7 : RN] []]) by reflexivity.
    rewrite E. cbn [filter ev_out r_out negb]. destruct (p_search [5] [(-1)]) as [d Hd].
    change (resampler_of isort 100 km_brute first_min u_opt) with (resampler_of isort 100 km_brute first_min p_opt). unfold resampler_of. cbn [co_max_cell_size p_opt co_strategy].
    rewrite (p_resampled _ _ _ _ _ d Hd). rewrite u_unweight. reflexivity.
  - exact (p_run Rsum u_draws).
  - assert (H : forall z, writable (N := RN) integer [] [IZR z]).
    { intros z. right. exists (IZR z). split; [reflexivity|]. split; [exists z; reflexivity|intros ? ? []]. }
    constructor; [apply H|]. constructor; [apply H|]. constructor; [apply H|constructor].
Qed.
