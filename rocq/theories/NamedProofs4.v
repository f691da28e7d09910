(** Proofs about named weights, 4: the program succeeds. *)
From Coq Require Import Permutation.
From Verif Require Import Base BaseProofs Num ModelEvent SpecWeights ModelText SpecText SpecFormats SpecHepMC TextProofs ReaderProofs ParserProofs
  ModelHepMC HepMCProofs HepMCProofs2 HepMCProofs3 NamesProofs ModelIO SpecIO FileProofs IOProofs ModelCres SpecCres CresProofs CresProofs2 ModelMain SpecMain MainProofs MainProofs2
  SpecNamed NamedProofs NamedProofs2.
From Coq Require Import Lia.

Lemma parse_hepmc_id (N : NumOps) (double : parser N) mw sort names r ev : parse_hepmc double mw sort names r = Ok ev -> ev_id ev = 0.
Proof.
  intros H. unfold parse_hepmc in H. inv_bind H. destruct x as [[w ws] rest]. inv_bind H. destruct x as [u b]. injection H as <-. reflexivity.
Qed.
Lemma cut_as {A B} : forall (recss : list (list A)) (W : list B), length W = length (concat recss) -> exists W2, W = concat W2 /\ map (@length B) W2 = map (@length A) recss.
Proof.
  induction recss as [|r recss IH]; intros W H; cbn [concat] in H; [exists []; destruct W; [auto|discriminate]|]. rewrite app_length in H.
  destruct (IH (skipn (length r) W)) as (W2 & E & El); [rewrite skipn_length; lia|]. exists (firstn (length r) W :: W2). cbn [concat map]. rewrite <- E, firstn_skipn, El, firstn_length.
  split; [reflexivity|]. f_equal. lia.
Qed.

Section Total.
Context (N : NumOps) (D : N -> Prop) (double : parser N) (show : N -> text) (xml : text -> option (xml_tag N)) (checks : bool) (names l : list text) (sort : sorter)
  (cluster : Event N -> option (Event N))
  (shuffle : list (Event N + @cres_error (option read_error)) -> list (Event N + @cres_error (option read_error)))
  (resample : list (Event N) -> option (list (Event N) + option read_error)).
Hypothesis HT : number_text N D double show.
Hypothesis Hshuffle : reorders shuffle.
Hypothesis Hsort : sort_ok sort.
Hypothesis Hcluster : forall e, exists e', cluster e = Some e' /\ ev_weights e' = ev_weights e /\ ev_id e' = ev_id e.
Hypothesis Hres : forall s, shaped true (S (length names)) (map ev_weights s) -> exists s', resample s = Some (inl s') /\
  map ev_id s' = map ev_id s /\ shaped true (S (length names)) (map ev_weights s').
Hypothesis Hne : names <> [].
Hypothesis Hnd : NoDup names.
Hypothesis Hl : l <> [].
Notation parse := (parse_hepmc double true sort names).
Notation program := (cres_program double show xml checks true names sort cluster shuffle resample lib_no_unweight).
Notation run := (run_on double true names sort cluster shuffle resample lib_no_unweight).

Lemma named_run_total records evs : Forall2 (fun r ev => parse r = Ok ev) records evs -> Forall (fun ev => length (ev_weights ev) = S (length names)) evs ->
  exists W, run (map inl (map HepMCRecord records)) = Wrote W /\ length W = length records /\
    Forall (fun w => w = [] \/ length w = S (length names)) W.
Proof.
  intros Hparse Hlen. unfold run_on. rewrite map_map.
  set (rs := map _ (map HepMCRecord records)). assert (Hlrs : length rs = length records) by (unfold rs; rewrite !map_length; reflexivity).
  assert (Hin : forall x, In x rs -> exists r ev, x = inl (HepMCRecord r) /\ parse r = Ok ev /\ length (ev_weights ev) = S (length names)).
  { intros x Hx. unfold rs in Hx. rewrite map_map in Hx. apply in_map_iff in Hx as (r & <- & Hr). destruct (In_nth_error _ _ Hr) as [i Hi].
    destruct (Forall2_nth _ _ _ _ _ Hparse i r Hi) as (ev & Ev & Hp). exists r, ev. split; [reflexivity|]. split; [exact Hp|]. rewrite Forall_forall in Hlen. apply Hlen. eapply nth_error_In; exact Ev. }
  assert (Hconv : forall r ev, parse r = Ok ev -> try_convert double true names sort (HepMCRecord r) = inl ev) by (intros r ev H; unfold try_convert; rewrite H; reflexivity).
  destruct (@run_used N _ _ (fun _ => false) (try_convert double true names sort) (try_cluster cluster) true sort resample lib_no_unweight shuffle rs Hshuffle) as (evs0 & used & Hev & Hp & _ & _ & H).
  { intros x err Hx Hf. destruct (Hin x Hx) as (r & ev & -> & Hpr & _). apply Hconv in Hpr as Hc. inversion Hf as [|? ? E1|? ev2 ? E1 E2|? ev2 ev2' E1 E2 E3]; subst.
    - congruence.
    - unfold try_cluster in E2. destruct (Hcluster ev2) as (e' & E & _). rewrite E in E2. discriminate.
    - rewrite Hc in E1. injection E1 as <-. unfold try_cluster in E2. destruct (Hcluster ev) as (e' & E & _ & Ei). rewrite E in E2. injection E2 as <-. apply E3. rewrite Ei. eapply parse_hepmc_id. exact Hpr. }
  assert (Hids : map ev_id evs0 = seq 0 (length rs)) by (eapply CresProofs2.events_of_ids; exact Hev).
  assert (Hone : Forall (fun e => length (ev_weights e) = S (length names)) evs0).
  { apply Forall_forall. intros e He. destruct (In_nth_error _ _ He) as [n Hn]. destruct Hev as [Hle Hev].
    destruct (nth_error rs n) as [x|] eqn:Er; [|apply nth_error_None in Er; assert (n < length evs0) by (apply nth_error_Some; congruence); lia].
    destruct (Hev n x e Er Hn) as (rec & ev & ev' & -> & H1 & H2 & _ & ->). cbn [ev_weights].
    destruct (Hin _ (nth_error_In _ _ Er)) as (r & ev2 & E & Hpr & Hw). injection E as ->. rewrite (Hconv _ _ Hpr) in H1. injection H1 as <-.
    unfold try_cluster in H2. destruct (Hcluster ev2) as (e2 & E2 & Hw2 & _). rewrite E2 in H2. injection H2 as <-. rewrite Hw2. exact Hw. }
  assert (Hsh : shaped true (S (length names)) (map ev_weights used)).
  { split; [lia|]. split; [discriminate|]. unfold uniform. rewrite Forall_map. eapply Permutation_Forall; [exact Hp|]. apply Forall_forall. intros e He. apply filter_In in He. rewrite Forall_forall in Hone. apply Hone. apply He. }
  destruct (Hres used Hsh) as (s' & Er & Hi & _ & _ & Hs'). destruct (H s' Er) as (_ & _ & H2). clear H.
  assert (Hndi : NoDup (map ev_id s')).
  { rewrite Hi. eapply Permutation_NoDup; [apply Permutation_map; exact Hp|]. apply CresProofs2.nodup_filter_map. rewrite Hids. apply seq_NoDup. }
  unfold uniform in Hs'. rewrite Forall_map in Hs'. rewrite Forall_forall in Hs'.
  destruct (H2 s' eq_refl Hsort) as (W & HW & HlW & HW1 & HW2).
  - apply Forall_forall. intros e He. split; [intros E; apply Hs' in He; rewrite E in He; discriminate|].
    assert (Hid : In (ev_id e) (map ev_id evs0)).
    { assert (Hiu : In (ev_id e) (map ev_id used)) by (rewrite <- Hi; apply in_map; exact He). apply in_map_iff in Hiu as (e0 & He0 & Hin0). apply in_map_iff. exists e0. split; [exact He0|].
      apply (Permutation_in _ (Permutation_sym Hp)) in Hin0. apply filter_In in Hin0. apply Hin0. }
    rewrite Hids in Hid. apply in_seq in Hid. lia.
  - exact Hndi.
  - exists W. split; [exact HW|]. split; [lia|]. apply Forall_forall. intros w Hw. destruct (In_nth_error _ _ Hw) as [n Hn].
    assert (Hnl : n < length W) by (apply nth_error_Some; congruence). rewrite HlW in Hnl.
    destruct (in_dec Nat.eq_dec n (map ev_id s')) as [Hni|Hni].
    + apply in_map_iff in Hni as (e & <- & He). rewrite (HW1 e He) in Hn. injection Hn as <-. right. apply Hs'. exact He.
    + rewrite (HW2 n Hnl Hni) in Hn. injection Hn as <-. left. reflexivity.
Qed.

Lemma named_program_total fuel inputs records evs : hepmc_contents inputs records -> Forall2 (fun r ev => parse r = Ok ev) records evs ->
  Forall (fun ev => length (ev_weights ev) = S (length names)) evs -> Forall (fun r => weight_names r l) records -> length records < fuel ->
  exists W, run (map inl (map HepMCRecord records)) = Wrote W /\ (Forall (Forall D) W -> exists outs, program fuel inputs = Done outs).
Proof.
  intros (recss & Hrec & ->) Hparse Hlen Hwn Hfuel. destruct (named_run_total _ evs Hparse Hlen) as (W & Hrun & HlW & HW). exists W. split; [exact Hrun|]. intros HD.
  destruct (cut_as recss W HlW) as (W2 & -> & HW2).
  assert (Hu : exists ls, Forall2 (fun x l => update_list (hepmc_update show true names) (fst x) (snd x) = Ok l) (combine W2 recss) ls).
  { assert (Hx : Forall (fun r => exists ev, parse r = Ok ev /\ length (ev_weights ev) = S (length names) /\ weight_names r l) (concat recss)).
    { apply Forall_forall. intros r Hr. destruct (In_nth_error _ _ Hr) as [i Hi]. destruct (Forall2_nth _ _ _ _ _ Hparse i r Hi) as (ev & Ev & Hp). exists ev. split; [exact Hp|].
      rewrite Forall_forall in Hlen, Hwn. split; [apply Hlen; eapply nth_error_In; exact Ev|apply Hwn; exact Hr]. }
    clear Hrun Hrec Hparse Hlen Hwn HlW Hfuel. revert W2 HW2 HW HD. induction recss as [|rs recss IH]; intros [|w W2] HW2 HW HD; try discriminate; [exists []; constructor|].
    cbn [map] in HW2. injection HW2 as Hl1 HW2. cbn [concat] in *. apply Forall_app in HW as [HW HWr]. apply Forall_app in HD as [HD HDr]. apply Forall_app in Hx as [Hx Hxr].
    destruct (IH Hxr W2 HW2 HWr HDr) as [ls IHl].
    destruct (update_list_forall2 (hepmc_update show true names) (fun _ _ _ => True) w rs Hl1) as (l1 & E1 & _).
    { rewrite Forall_forall in HW, HD, Hx. intros w0 r Hw0 Hr. destruct (Hx r Hr) as (ev & Hp & Hle & Hn). destruct (HW w0 Hw0) as [->|Hw]; [exists r; split; [reflexivity|exact I]|].
      destruct w0 as [|w0 ws]; [discriminate|]. injection Hw as Hw. pose proof (HD _ Hw0) as HDw.
      destruct (hepmc_multi N D double show sort HT names r ev w0 ws Hne Hnd Hp HDw Hw) as [[_ (a & num & v & q & E & Ha & Hnum & Hq & Hpos)]|(r' & _ & _ & G & _)]; [cbn; lia| |eauto].
      destruct (names_complete names r l Hn Hl a num v q E Ha Hnum Hq) as [ps Hps]. congruence. }
    exists (l1 :: ls). cbn [combine]. constructor; assumption. }
  destruct Hu as [ls Hls]. eexists. exact (hepmc_program_done N double show xml checks true names sort cluster shuffle resample lib_no_unweight fuel inputs recss W2 ls Hrec Hfuel Hrun HW2 Hls).
Qed.
End Total.
