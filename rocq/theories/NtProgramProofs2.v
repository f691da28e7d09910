(** Proofs about the program on ntuples, 2: the run between reading and writing. *)
From Coq Require Import Reals Lra Permutation.
From Verif Require Import Base BaseProofs Num ModelEvent SpecWeights ModelText SpecRecord ModelNtuple SpecNtuple NtupleProofs IOProofs MainProofs
  ModelCres SpecCres CresProofs CresProofs2 ModelNtProgram SpecNtProgram NtProgramProofs.
From Coq Require Import Lia.

(** *** One record *)
Section Record.
Context (N : NumOps) (Other : Type) (mw : bool) (names : list text) (sort : sorter).
Notation event := (ntuple_event N Other).

Lemma particles_weights (r : event) : forall n i b b', nt_particles r i n b = Some b' -> b_weights b' = b_weights b.
Proof.
  induction n as [|n IH]; intros i b b' H; cbn [nt_particles] in H; [congruence|].
  destruct (nth_error (nt_pdg r) i), (nth_error (nt_energy r) i), (nth_error (nt_px r) i), (nth_error (nt_py r) i), (nth_error (nt_pz r) i); try discriminate.
  rewrite (IH _ _ _ H). reflexivity.
Qed.
Lemma convert_weights (r : event) ev : convert_ntuple mw sort names r = Some ev -> ntuple_weights mw names r (ev_weights ev) /\ ev_id ev = 0.
Proof.
  unfold convert_ntuple. destruct (Z.ltb _ _); [discriminate|]. set (b := if mw then _ else _). destruct (nt_particles r 0 _ b) as [b'|] eqn:E; [|discriminate].
  intros H. injection H as <-. split; [|reflexivity]. cbn [build ev_weights]. rewrite (particles_weights _ _ _ _ _ E). unfold b.
  pose proof (used_spec mw names "2"%string) as U1. pose proof (used_spec mw names "ME"%string) as U2. pose proof (used_spec mw names "ME2"%string) as U3.
  unfold ntuple_weights. destruct mw; cbn [andb] in *.
  - destruct (has_name names (lit "2")), (has_name names (lit "ME")), (has_name names (lit "ME2"));
    [exists [nt_weight2 r], [nt_me r], [nt_me2 r]|exists [nt_weight2 r], [nt_me r], []|exists [nt_weight2 r], [], [nt_me2 r]|exists [nt_weight2 r], [], []
    |exists [], [nt_me r], [nt_me2 r]|exists [], [nt_me r], []|exists [], [], [nt_me2 r]|exists [], [], []]; rewrite U1, U2, U3; (split; [reflexivity|]); intuition congruence.
  - exists [], [], []. rewrite U1, U2, U3. split; [reflexivity|]. intuition congruence.
Qed.
Lemma convert_complete (r : event) : complete r -> exists ev, convert_ntuple mw sort names r = Some ev.
Proof.
  intros (l & Hn & Hl). unfold convert_ntuple. destruct (Z.ltb_spec (nt_nparticle r) 0); [lia|]. rewrite Hn, Nat2Z.id. set (b := if mw then _ else _).
  rewrite (nt_particles_spec N Other r l b 0) by exact Hl. eauto.
Qed.
Lemma chosen_position (f : event -> N) : chosen mw names f -> exists k, forall r ws, ntuple_weights mw names r ws -> nth_error ws k = Some (f r).
Proof.
  pose proof (used_spec mw names) as U. intros H.
  assert (K : forall name, {used mw names name} + {~ used mw names name}).
  { intros name. destruct (mw && has_name names (lit name))%bool eqn:E; [left; apply U; auto|right; apply unused_spec; auto]. }
  destruct H as [|H|H|H].
  - exists 0. intros r ws (w2 & me & me2 & -> & _). reflexivity.
  - exists 1. intros r ws (w2 & me & me2 & -> & A1 & A2 & B1 & B2 & C1 & C2). rewrite (A1 H). reflexivity.
  - destruct (K "2"%string) as [H2|H2].
    + exists 2. intros r ws (w2 & me & me2 & -> & A1 & A2 & B1 & B2 & C1 & C2). rewrite (A1 H2), (B1 H). reflexivity.
    + exists 1. intros r ws (w2 & me & me2 & -> & A1 & A2 & B1 & B2 & C1 & C2). rewrite (A2 H2), (B1 H). reflexivity.
  - destruct (K "2"%string) as [H2|H2], (K "ME"%string) as [H3|H3]; [exists 3|exists 2|exists 2|exists 1]; intros r ws (w2 & me & me2 & -> & A1 & A2 & B1 & B2 & C1 & C2);
      rewrite ?(A1 H2), ?(A2 H2), ?(B1 H3), ?(B2 H3), (C1 H); reflexivity.
Qed.
Lemma same_refl (r : event) : same_but_weights mw names r r.
Proof. unfold same_but_weights. intuition. Qed.
End Record.

(** *** The run *)
Section Run.
Context (N : NumOps) (Other : Type) (mw : bool) (names : list text) (sort : sorter) (cluster : Event N -> option (Event N))
  (shuffle : list (Event N + @cres_error unit) -> list (Event N + @cres_error unit))
  (resample : list (Event N) -> option (list (Event N) + unit)).
Notation event := (ntuple_event N Other).
Notation convert := (convert_ntuple mw sort names).
Notation run := (nt_run (Other := Other) mw names sort cluster shuffle resample lib_no_unweight).
Notation nw := (nused mw names).
Hypothesis Hshuffle : reorders shuffle.
Hypothesis Hsort : sort_ok sort.

Lemma nused_pos : 0 < nw /\ (mw = false -> nw = 1).
Proof. unfold nused. split; [lia|]. intros ->. reflexivity. Qed.
Lemma shaped_by (evs : list (Event N)) : Forall (fun e => length (ev_weights e) = nw) evs -> shaped mw nw (map ev_weights evs).
Proof. intros H. split; [apply nused_pos|]. split; [apply nused_pos|]. unfold uniform. rewrite Forall_map. exact H. Qed.

(** The events are converted and clustered. *)
Lemma events_facts (records : list event) evs0 :
  (forall e e', cluster e = Some e' -> ev_weights e' = ev_weights e) ->
  events_of (nt_convert mw names sort) (nt_cluster cluster) (map inl records) evs0 ->
  exists evs, Forall2 (fun r ev => convert r = Some ev) records evs /\
    Forall2 (fun e e0 => ev_weights e0 = ev_weights e /\ has_particles e0 = identified cluster e) evs evs0 /\
    Forall (fun e => length (ev_weights e) = nw) evs0.
Proof.
  intros Hcl [Hl He]. rewrite map_length in Hl.
  assert (H : forall i r e0, nth_error records i = Some r -> nth_error evs0 i = Some e0 -> exists ev, convert r = Some ev /\ ev_weights e0 = ev_weights ev /\ has_particles e0 = identified cluster ev).
  { intros i r e0 Hr H0. destruct (He i (inl r) e0 (map_nth_error inl _ _ Hr) H0) as (r' & ev & ev' & A & B & C & _ & ->). injection A as <-.
    unfold nt_convert in B. destruct (convert r) as [ev1|] eqn:Ec; [|discriminate]. injection B as ->. exists ev. split; [reflexivity|].
    unfold nt_cluster in C. unfold identified. destruct (cluster ev) as [e2|] eqn:E2; [|discriminate]. injection C as ->. cbn [ev_weights]. split; [apply Hcl; exact E2|reflexivity]. }
  clear He. revert evs0 Hl H. induction records as [|r records IH]; intros [|e0 evs0] Hl H; try discriminate.
  - exists []. repeat constructor.
  - destruct (H 0 r e0 eq_refl eq_refl) as (ev & A & B & C). destruct (IH evs0) as (evs & P & Q & L); [cbn in Hl; lia|intros i; apply (H (S i))|].
    exists (ev :: evs). split; [constructor; assumption|]. split; [constructor; auto|]. constructor; [|exact L].
    rewrite B. eapply ntuple_weights_length. apply (convert_weights _ _ _ _ _ _ _ A).
Qed.

Lemma run_facts records W :
  (forall e e', cluster e = Some e' -> ev_weights e' = ev_weights e) ->
  (forall s s', shaped mw nw (map ev_weights s) -> resample s = Some (inl s') -> map ev_id s' = map ev_id s /\ shaped mw nw (map ev_weights s')) ->
  run records = Wrote W ->
  exists evs evs0, length W = length records /\
    Forall2 (fun r ev => convert r = Some ev) records evs /\
    events_of (nt_convert mw names sort) (nt_cluster cluster) (map inl records) evs0 /\
    Forall2 (fun e e0 => ev_weights e0 = ev_weights e /\ has_particles e0 = identified cluster e) evs evs0 /\
    shaped mw nw (map ev_weights evs0) /\
    Forall (fun ws => ws = [] \/ length ws = nw) W /\
    (forall i ev, nth_error evs i = Some ev -> identified cluster ev = false -> nth_error W i = Some (weights_default mw)).
Proof.
  intros Hcl Hres Hrun. unfold nt_run in Hrun.
  destruct (run_wrote Hshuffle Hsort Hrun) as (Hl1 & evs0 & used & evs1 & evs2 & Hev & Hperm & Hr & Hu & Hid & HWn). rewrite map_length in *.
  destruct (events_facts records evs0 Hcl Hev) as (evs & Hconv & H0 & Hone). pose proof (shaped_by _ Hone) as Hsh.
  exists evs, evs0. split; [exact Hl1|]. split; [exact Hconv|]. split; [exact Hev|]. split; [exact H0|]. split; [exact Hsh|].
  assert (Hshu : shaped mw nw (map ev_weights used)).
  { apply shaped_by. eapply Permutation_Forall; [exact Hperm|]. apply Forall_forall. intros e He. apply filter_In in He. rewrite Forall_forall in Hone. apply Hone. apply He. }
  destruct (Hres used evs1 Hshu Hr) as (T1 & _ & _ & T2). cbn in Hu. injection Hu as <-.
  assert (Hndu : NoDup (map ev_id evs1)) by (rewrite T1; eapply used_nodup; eauto). destruct (HWn Hndu) as [HW1 HW]. split.
  - apply Forall_forall. intros w Hw. destruct (In_nth_error _ _ Hw) as [n Hn].
    assert (Hnl : n < length W) by (apply nth_error_Some; congruence).
    destruct (in_dec Nat.eq_dec n (map ev_id evs1)) as [Hni|Hni].
    + apply in_map_iff in Hni as (e & <- & He). rewrite (HW1 e He) in Hn. injection Hn as <-. right. unfold uniform in T2. rewrite Forall_map, Forall_forall in T2. apply T2. exact He.
    + rewrite (HW n ltac:(lia) Hni) in Hn. injection Hn as <-. unfold weights_default. destruct mw eqn:Em; [left; reflexivity|right; reflexivity].
  - intros i ev Hi Hk. destruct (Forall2_nth _ _ _ _ _ H0 i ev Hi) as (e0 & E0 & _ & K). rewrite Hk in K.
    apply (HW i).
    + rewrite (BaseProofs.Forall2_len Hconv). apply nth_error_Some. congruence.
    + rewrite T1. intros Hi2. apply in_map_iff in Hi2. destruct Hi2 as (e & Ei & Hi2).
      eapply Permutation_in in Hi2; [|apply Permutation_sym; exact Hperm]. apply filter_In in Hi2. destruct Hi2 as [Hi2 Hp].
      apply (events_of_nth Hev) in Hi2. rewrite Ei, E0 in Hi2. injection Hi2 as <-. congruence.
Qed.

Lemma run_total records :
  (forall e, exists e', cluster e = Some e' /\ ev_weights e' = ev_weights e /\ ev_id e' = ev_id e) ->
  (forall s, shaped mw nw (map ev_weights s) -> exists s', resample s = Some (inl s') /\ map ev_id s' = map ev_id s /\ shaped mw nw (map ev_weights s')) ->
  Forall complete records -> exists W, run records = Wrote W.
Proof.
  intros Hcl Hres Hc. rewrite Forall_forall in Hc. unfold nt_run.
  destruct (@run_used N _ _ (fun _ => true) (nt_convert (Other := Other) mw names sort) (nt_cluster cluster) mw sort resample lib_no_unweight shuffle (map inl records) Hshuffle)
    as (evs0 & used & Hev & Hp & _ & _ & H).
  { intros x err Hx Hf. apply in_map_iff in Hx as (r & <- & Hr). destruct (convert_complete N Other mw names sort r (Hc r Hr)) as [ev Hev].
    assert (Hc1 : nt_convert mw names sort r = inl ev) by (unfold nt_convert; rewrite Hev; reflexivity).
    inversion Hf as [|? ? E1|? ev2 ? E1 E2|? ev2 ev2' E1 E2 E3]; subst.
    - congruence.
    - unfold nt_cluster in E2. destruct (Hcl ev2) as (e' & E & _). rewrite E in E2. discriminate.
    - rewrite Hc1 in E1. injection E1 as <-. unfold nt_cluster in E2. destruct (Hcl ev) as (e' & E & _ & Ei). rewrite E in E2. injection E2 as <-. apply E3. rewrite Ei.
      apply (convert_weights _ _ _ _ _ _ _ Hev). }
  destruct (events_facts records evs0) as (evs & Hconv & H0 & Hone); [|exact Hev|].
  { intros e e' E. destruct (Hcl e) as (e2 & E2 & Hw & _). congruence. }
  assert (Hids : map ev_id evs0 = seq 0 (length records)) by (rewrite <- (map_length (@inl _ unit)); eapply CresProofs2.events_of_ids; exact Hev).
  assert (Hshu : shaped mw nw (map ev_weights used)).
  { apply shaped_by. eapply Permutation_Forall; [exact Hp|]. apply Forall_forall. intros e He. apply filter_In in He. rewrite Forall_forall in Hone. apply Hone. apply He. }
  destruct (Hres used Hshu) as (s' & Er & Hi & _ & _ & Hs'). destruct (H s' Er) as (_ & _ & H2). clear H.
  assert (Hndi : NoDup (map ev_id s')).
  { rewrite Hi. eapply Permutation_NoDup; [apply Permutation_map; exact Hp|]. apply CresProofs2.nodup_filter_map. rewrite Hids. apply seq_NoDup. }
  unfold uniform in Hs'. rewrite Forall_map in Hs'. rewrite Forall_forall in Hs'. rewrite map_length in H2.
  destruct (H2 s' eq_refl Hsort) as (W & HW & _); [|exact Hndi|eauto].
  apply Forall_forall. intros e He. split; [intros E; apply Hs' in He; rewrite E in He; pose proof nused_pos; cbn in He; lia|].
  assert (Hid : In (ev_id e) (map ev_id evs0)).
  { assert (Hiu : In (ev_id e) (map ev_id used)) by (rewrite <- Hi; apply in_map; exact He). apply in_map_iff in Hiu as (e0 & He0 & Hin0). apply in_map_iff. exists e0. split; [exact He0|].
    apply (Permutation_in _ (Permutation_sym Hp)) in Hin0. apply filter_In in Hin0. apply Hin0. }
  rewrite Hids in Hid. apply in_seq in Hid. lia.
Qed.
End Run.
