(** Proofs about named weights, 3: the sums of the weights of a name, before and after a run of the program. *)
From Coq Require Import Reals Lra Permutation.
From Verif Require Import Base BaseProofs Num ModelEvent SpecWeights ModelText SpecText SpecFormats SpecHepMC TextProofs ReaderProofs ParserProofs
  ModelHepMC HepMCProofs HepMCProofs2 HepMCProofs3 ModelIO SpecIO FileProofs IOProofs ModelCres SpecCres CresProofs CresProofs2 ModelMain SpecMain MainProofs MainProofs2
  SpecNamed NamedProofs NamedProofs2.
From Coq Require Import Lia.
Local Open Scope R_scope.

Section Sums.
Context (D : R -> Prop) (double : parser RN) (show : R -> text) (sort : sorter) (names l : list text).
Hypothesis HT : number_text RN D double show.
Hypothesis Hne : names <> [].
Hypothesis Hnd : NoDup names.
Hypothesis Hndl : NoDup l.
Hypothesis Hin : incl names l.
Notation parse := (parse_hepmc double true sort names).
Notation chosen := (filter (is_name names) l).

Lemma l_ne : l <> [].
Proof. intros ->. destruct names as [|n ns]; [congruence|]. exact (Hin n (or_introl eq_refl)). Qed.
Lemma chosen_nth name : In name names -> exists j, nth_error chosen j = Some name.
Proof. intros H. apply In_nth_error. apply filter_In. split; [apply Hin; exact H|apply is_name_In; exact H]. Qed.

Lemma read_named r ev name j : parse r = Ok ev -> length (ev_weights ev) = S (length names) -> weight_names r l ->
  nth_error chosen j = Some name -> weight_named double r name (nth (S j) (ev_weights ev) 0).
Proof.
  intros Hp Hl Hw Hj. destruct (named_values RN D double show sort names HT Hne Hnd r ev l Hp Hl Hw l_ne Hndl) as (w0 & ws & E & _ & HF).
  destruct (Forall2_nth _ _ _ _ _ HF j name Hj) as (v & Ev & i & Ei & Hv). 
  assert (nth (S j) (ev_weights ev) 0 = v) as X by (rewrite E; exact (nth_error_nth ws j _ Ev)).
  refine (eq_ind_r (fun x => weight_named double r name x) _ X).
  exists l, i. split; [exact l_ne|]. auto.
Qed.
Lemma read_first r ev : parse r = Ok ev -> length (ev_weights ev) = S (length names) -> weight_names r l ->
  weight_at double r 0 (nth 0 (ev_weights ev) 0) /\
  ((exists name, nth_error l 0 = Some name /\ In name names) -> nth 0 (ev_weights ev) 0 = nth 1 (ev_weights ev) 0).
Proof.
  intros Hp Hl Hw. destruct (named_values RN D double show sort names HT Hne Hnd r ev l Hp Hl Hw l_ne Hndl) as (w0 & ws & E & H0 & HF).
  rewrite E. cbn [nth]. split; [exact H0|]. intros (name & E0 & Hn). destruct l as [|x l'] eqn:El; [discriminate|]. cbn [nth_error] in E0. injection E0 as ->.
  cbn [filter] in HF. rewrite (proj2 (is_name_In names name) Hn) in HF. inversion HF as [|? v ? vs (i & Ei & Hv) _ A B]; subst. cbn [nth].
  assert (i = 0%nat) as ->.
  { destruct i as [|i]; [reflexivity|]. exfalso. inversion Hndl; subst. cbn in Ei. apply nth_error_In in Ei. auto. }
  exact (weight_at_fun RN double r 0 w0 v H0 Hv).
Qed.

(** one record *)
Lemma named_step r ev w r' : parse r = Ok ev -> length (ev_weights ev) = S (length names) -> weight_names r l ->
  utf8 r = true -> ~ occurs event_mark r -> begins_with ["E"%char] r -> Forall D w -> hepmc_update show true names w r = Ok r' ->
  fits r r' /\ weight_names r' l /\ (w = [] -> r' = r) /\
  (forall i v, i <> 0%nat -> (forall name, nth_error l i = Some name -> ~ In name names) -> weight_at double r i v -> weight_at double r' i v) /\
  exists ev', parse r' = Ok ev' /\ ev_out ev' = ev_out ev /\ length (ev_weights ev') = S (length names) /\
    (forall j, nth (S j) (ev_weights ev') 0 = nth (S j) (written_weights (N := RN) (ev_weights ev) w) 0) /\
    ((forall name, nth_error l 0 = Some name -> ~ In name names) -> nth 0 (ev_weights ev') 0 = nth 0 (written_weights (N := RN) (ev_weights ev) w) 0).
Proof.
  intros Hp Hl Hw Hu Ho Hb HD Hup. destruct w as [|w0 ws].
  - cbn in Hup. injection Hup as <-. split.
    { unfold fits. repeat (split; [assumption|]). split; [|auto]. destruct Hb as [b ->]. destruct b as [|c b]; [|cbn; lia]. exfalso. discriminate. }
    split; [exact Hw|]. split; [reflexivity|]. split; [auto|]. exists ev. auto.
  - destruct (named_record RN D double show sort names HT Hne Hnd r ev w0 ws l r' Hp Hl Hup HD Hw l_ne Hndl Hu Ho)
      as (H1 & H2 & (w1 & H3 & H4 & H5) & H6 & H7 & H8 & H9 & H10 & H11).
    split; [unfold fits; auto|]. split; [exact H1|]. split; [discriminate|]. split; [exact H6|]. eexists. split; [exact H3|]. cbn [ev_out ev_weights length].
    split; [reflexivity|]. split; [rewrite H2; reflexivity|]. split; [reflexivity|]. intros H. rewrite (H5 H). reflexivity.
Qed.

Context (xml : text -> option (xml_tag RN)) (checks : bool) (cluster : Event RN -> option (Event RN))
  (shuffle : list (Event RN + @cres_error (option read_error)) -> list (Event RN + @cres_error (option read_error)))
  (resample : list (Event RN) -> option (list (Event RN) + option read_error)).
Hypothesis Hshuffle : reorders shuffle.
Hypothesis Hsort : sort_ok sort.
Hypothesis Hcluster : forall e e', cluster e = Some e' -> ev_weights e' = ev_weights e.
Hypothesis Hres : forall s s', shaped true (S (length names)) (map ev_weights s) -> resample s = Some (inl s') ->
  map ev_id s' = map ev_id s /\ map ev_out s' = map ev_out s /\ shaped true (S (length names)) (map ev_weights s') /\
  forall k, total (map ev_weights s') k = total (map ev_weights s) k.

Lemma named_run records evs W : Forall2 (fun r ev => parse r = Ok ev) records evs -> Forall (fun ev => length (ev_weights ev) = S (length names)) evs ->
  run_on double true names sort cluster shuffle resample lib_no_unweight (map inl (map HepMCRecord records)) = Wrote W ->
  (forall k, total (written (map ev_weights evs) W) k = total (map ev_weights evs) k) /\
  (forall i ev, nth_error evs i = Some ev -> keeps_particles cluster ev = false -> nth_error W i = Some []).
Proof.
  intros Hparse Hlen Hrun. unfold run_on in Hrun. rewrite map_map in Hrun. cbn beta iota in Hrun.
  destruct (run_wrote Hshuffle Hsort Hrun) as (Hl1 & evs0 & used & evs1 & evs2 & Hev & Hperm & Hr & Hu & Hid & HWn).
  assert (H0 : Forall2 (fun e e0 => ev_weights e0 = ev_weights e /\ has_particles e0 = keeps_particles cluster e) evs evs0).
  { destruct Hev as [Hl He]. rewrite !map_length in Hl. apply Forall2_from_nth.
    - rewrite Hl. symmetry. exact (Forall2_len _ _ _ _ _ Hparse).
    - intros i e e0 Hi Hi0. destruct (nth_error records i) as [r|] eqn:Er.
      2:{ apply nth_error_None in Er. assert (i < length evs)%nat by (apply nth_error_Some; congruence). rewrite (Forall2_len _ _ _ _ _ Hparse) in Er. lia. }
      destruct (Forall2_nth _ _ _ _ _ Hparse i r Er) as (e1 & E1 & Hp). rewrite Hi in E1. injection E1 as <-.
      pose proof (map_nth_error (fun x => @inl _ (option read_error) (HepMCRecord x)) _ _ Er) as Er2.
      match type of He with forall n r ev, nth_error ?x n = _ -> _ => assert (nth_error x i = Some (inl (HepMCRecord r))) as Er3 by (rewrite map_map; exact Er2) end.
      destruct (He i _ _ Er3 Hi0) as (r' & ev & ev' & A & B & C & X). injection A as <-.
      assert (ev = e) as ->. { change (as_result (parse r) = inl ev) in B. rewrite Hp in B. cbn in B. congruence. }
      unfold try_cluster in C. destruct (cluster e) as [e2|] eqn:Ec; [|discriminate]. injection C as <-. destruct X as [_ ->]. cbn [ev_weights].
      split; [exact (Hcluster _ _ Ec)|]. unfold keeps_particles. rewrite Ec. reflexivity. }
  assert (Hw : map ev_weights evs0 = map ev_weights evs) by (clear -H0; induction H0 as [|e e0 a b [H _] _ IH]; [reflexivity|exact (f_equal2 cons H IH)]).
  assert (Hsh : shaped true (S (length names)) (map ev_weights evs0)).
  { rewrite Hw. split; [lia|]. split; [discriminate|]. unfold uniform. rewrite Forall_map. exact Hlen. }
  split.
  - intros k. rewrite <- Hw. pose proof (run_total_no_unweight_gen Hres Hshuffle Hsort Hev Hsh k Hrun) as H. exact H.
  - destruct (Hres used evs1 (shaped_used Hsh Hperm) Hr) as (T1 & _). cbn in Hu. injection Hu as <-.
    assert (Hndu : NoDup (map ev_id evs1)) by (rewrite T1; eapply used_nodup; eauto). destruct (HWn Hndu) as [_ HW].
    intros i ev Hi Hk. destruct (Forall2_nth _ _ _ _ _ H0 i ev Hi) as (e0 & E0 & _ & K). rewrite Hk in K.
    apply (HW i).
    + rewrite !map_length, (Forall2_len _ _ _ _ _ Hparse). apply nth_error_Some. congruence.
    + rewrite T1. intros Hi2. apply in_map_iff in Hi2. destruct Hi2 as (e & Ei & Hi2).
      eapply Permutation_in in Hi2; [|apply Permutation_sym; exact Hperm]. apply filter_In in Hi2. destruct Hi2 as [Hi2 Hp].
      apply (events_of_nth Hev) in Hi2. rewrite Ei, E0 in Hi2. injection Hi2 as <-. congruence.
Qed.

Notation program := (cres_program double show xml checks true names sort cluster shuffle resample lib_no_unweight).

Lemma named_program fuel inputs outs records evs :
  Forall hepmc_file inputs -> hepmc_contents inputs records -> Forall2 (fun r ev => parse r = Ok ev) records evs ->
  Forall (fun ev => length (ev_weights ev) = S (length names)) evs -> Forall (fun r => weight_names r l) records ->
  program fuel inputs = Done outs ->
  exists W, run_on double true names sort cluster shuffle resample lib_no_unweight (map inl (map HepMCRecord records)) = Wrote W /\
  (Forall (Forall D) W -> exists records' evs', hepmc_contents outs records' /\ Forall2 (fun r ev => parse r = Ok ev) records' evs' /\
    map ev_out evs' = map ev_out evs /\ Forall (fun r => weight_names r l) records' /\
    (forall i ev, nth_error evs i = Some ev -> keeps_particles cluster ev = false -> nth_error records' i = nth_error records i) /\
    (forall i r r' k v, nth_error records i = Some r -> nth_error records' i = Some r' -> k <> 0%nat ->
       (forall name, nth_error l k = Some name -> ~ In name names) -> weight_at double r k v -> weight_at double r' k v) /\
    (forall name, In name names -> exists vs vs', Forall2 (fun r v => weight_named double r name v) records vs /\
       Forall2 (fun r v => weight_named double r name v) records' vs' /\ Rsum vs' = Rsum vs) /\
    exists vs vs', Forall2 (fun r v => weight_at double r 0 v) records vs /\ Forall2 (fun r v => weight_at double r 0 v) records' vs' /\ Rsum vs' = Rsum vs).
Proof.
  intros Hf Hc Hparse Hlen Hwn Hp.
  destruct (hepmc_program RN double show xml checks true names sort cluster shuffle resample lib_no_unweight Hshuffle Hsort fuel inputs outs records Hf Hc Hp)
    as (W & records' & Hrun & HlW & Hlr & Hup & Hgood & Hfits).
  exists W. split; [exact Hrun|]. intros HD. destruct (named_run records evs W Hparse Hlen Hrun) as [Htot Hnone].
  pose proof (Forall2_len _ _ _ _ _ Hparse) as Hle.
  assert (Hpt : forall i r', nth_error records' i = Some r' -> exists r ev w, nth_error records i = Some r /\ nth_error evs i = Some ev /\ nth_error W i = Some w /\
    parse r = Ok ev /\ length (ev_weights ev) = S (length names) /\ weight_names r l /\ fits r r' /\ weight_names r' l /\ (w = [] -> r' = r) /\
    (forall i v, i <> 0%nat -> (forall name, nth_error l i = Some name -> ~ In name names) -> weight_at double r i v -> weight_at double r' i v) /\
    exists ev', parse r' = Ok ev' /\ ev_out ev' = ev_out ev /\ length (ev_weights ev') = S (length names) /\
      (forall j, nth (S j) (ev_weights ev') 0 = nth (S j) (written_weights (N := RN) (ev_weights ev) w) 0) /\
      ((forall name, nth_error l 0 = Some name -> ~ In name names) -> nth 0 (ev_weights ev') 0 = nth 0 (written_weights (N := RN) (ev_weights ev) w) 0)).
  { intros i r' Hr'. assert (Hi : (i < length records')%nat) by (apply nth_error_Some; congruence).
    destruct (nth_error records i) as [r|] eqn:Er; [|apply nth_error_None in Er; unfold text in *; lia].
    destruct (nth_error W i) as [w|] eqn:Ew; [|apply nth_error_None in Ew; unfold text in *; lia].
    destruct (Forall2_nth _ _ _ _ _ Hparse i r Er) as (ev & Eev & Hpr). exists r, ev, w.
    rewrite Forall_forall in Hgood, Hlen, Hwn, HD. destruct (Hgood r (nth_error_In _ _ Er)) as (G1 & G2 & G3).
    pose proof (Hlen ev (nth_error_In _ _ Eev)) as L. pose proof (Hwn r (nth_error_In _ _ Er)) as WN.
    repeat (split; [first [reflexivity|assumption]|]).
    apply (named_step r ev w r' Hpr L WN G1 G2 G3 (HD w (nth_error_In _ _ Ew)) (Hup i w r r' Ew Er Hr')). }
  assert (Hevs' : exists evs', Forall2 (fun r ev => parse r = Ok ev) records' evs').
  { clear -Hpt. induction records' as [|r rs IH] in W, records, evs, Hpt |- *; [exists []; constructor|].
    destruct (Hpt 0%nat r eq_refl) as (r0 & ev0 & w0 & A1 & A2 & A3 & _ & _ & _ & _ & _ & _ & _ & ev' & E & _).
    destruct records as [|? records]; [discriminate|]. destruct evs as [|? evs]; [discriminate|]. destruct W as [|? W]; [discriminate|].
    destruct (IH records evs W (fun i => Hpt (S i))) as [evs' IHe]. exists (ev' :: evs'). constructor; assumption. }
  destruct Hevs' as [evs' Hparse']. pose proof (Forall2_len _ _ _ _ _ Hparse') as Hle'.
  assert (Hev' : forall i ev', nth_error evs' i = Some ev' -> exists ev w, nth_error evs i = Some ev /\ nth_error W i = Some w /\
      ev_out ev' = ev_out ev /\ length (ev_weights ev') = S (length names) /\
      (forall j, nth (S j) (ev_weights ev') 0 = nth (S j) (written_weights (N := RN) (ev_weights ev) w) 0) /\
      ((forall name, nth_error l 0 = Some name -> ~ In name names) -> nth 0 (ev_weights ev') 0 = nth 0 (written_weights (N := RN) (ev_weights ev) w) 0)).
  { intros i ev' Hi. destruct (nth_error records' i) as [r'|] eqn:Er'.
    2:{ apply nth_error_None in Er'. assert (i < length evs')%nat by (apply nth_error_Some; congruence). unfold text in *. lia. }
    destruct (Forall2_nth _ _ _ _ _ Hparse' i r' Er') as (e2 & E2 & P2). rewrite Hi in E2. injection E2 as <-.
    destruct (Hpt i r' Er') as (r & ev & w & _ & A2 & A3 & _ & _ & _ & _ & _ & _ & _ & e3 & P3 & A4). rewrite P2 in P3. injection P3 as <-.
    exists ev, w. auto. }
  assert (Hlev : length evs' = length evs) by (unfold text in *; lia).
  assert (Hsum : forall k, (forall i ev' ev w, nth_error evs' i = Some ev' -> nth_error evs i = Some ev -> nth_error W i = Some w ->
       nth k (ev_weights ev') 0 = nth k (written_weights (N := RN) (ev_weights ev) w) 0) -> total (map ev_weights evs') k = total (map ev_weights evs) k).
  { intros k Hk. rewrite <- Htot. assert (HlW2 : length W = length evs) by (unfold text in *; lia). clear -Hk Hlev HlW2.
    revert evs W Hk Hlev HlW2. induction evs' as [|e' evs' IH]; intros [|e evs] [|w W] Hk H1 H2; try discriminate; [reflexivity|].
    unfold total, written in *. cbn [map combine fst snd]. cbn [Rsum fold_right]. apply (f_equal2 Rplus); [apply (Hk 0%nat e' e w); reflexivity|].
    apply IH; [intros i; apply (Hk (S i))|injection H1 as H1; exact H1|injection H2 as H2; exact H2]. }
  assert (HsumS : forall j, total (map ev_weights evs') (S j) = total (map ev_weights evs) (S j)).
  { intros j. apply Hsum. intros i ev' ev w A B C. destruct (Hev' i ev' A) as (ev0 & w0 & B0 & C0 & _ & _ & H & _). rewrite B in B0. rewrite C in C0. injection B0 as <-. injection C0 as <-. apply H. }
  assert (Hlen' : Forall (fun ev => length (ev_weights ev) = S (length names)) evs').
  { apply Forall_forall. intros ev' Hi. destruct (In_nth_error _ _ Hi) as [i Hi']. destruct (Hev' i ev' Hi') as (_ & _ & _ & _ & _ & H & _). exact H. }
  assert (Hwn' : Forall (fun r => weight_names r l) records').
  { apply Forall_forall. intros r' Hi. destruct (In_nth_error _ _ Hi) as [i Hi']. destruct (Hpt i r' Hi') as (r & ev & w & _ & _ & _ & _ & _ & _ & _ & H & _). exact H. }
  assert (Hfirst : forall (rs : list text) (es : list (Event RN)), Forall2 (fun r ev => parse r = Ok ev) rs es -> Forall (fun ev => length (ev_weights ev) = S (length names)) es ->
      Forall (fun r => weight_names r l) rs -> Forall2 (fun r v => weight_at double r 0 v) rs (map (fun ev => nth 0 (ev_weights ev) 0) es) /\
      ((exists name, nth_error l 0 = Some name /\ In name names) -> total (map ev_weights es) 0 = total (map ev_weights es) 1)).
  { clear -HT Hne Hnd Hndl Hin. intros rs es HP HL HW. induction HP as [|r ev rs es P _ IH]; [split; [constructor|reflexivity]|].
    inversion HL; inversion HW; subst. destruct IH as [I1 I2]; [assumption..|]. destruct (read_first r ev P) as [F1 F2]; [assumption..|].
    split; [constructor; assumption|]. intros Hx. unfold total in *. cbn [map]. apply (f_equal2 Rplus); [apply F2; exact Hx|apply I2; exact Hx]. }
  assert (Hnamed : forall name j (rs : list text) (es : list (Event RN)), nth_error chosen j = Some name -> Forall2 (fun r ev => parse r = Ok ev) rs es -> Forall (fun ev => length (ev_weights ev) = S (length names)) es ->
      Forall (fun r => weight_names r l) rs -> Forall2 (fun r v => weight_named double r name v) rs (map (fun ev => nth (S j) (ev_weights ev) 0) es)).
  { clear -HT Hne Hnd Hndl Hin. intros name j rs es Hj HP HL HW. induction HP as [|r ev rs es P _ IH]; [constructor|].
    inversion HL; inversion HW; subst. constructor; [apply read_named; assumption|apply IH; assumption]. }
  exists records', evs'. split; [apply Hfits|].
  { apply Forall2_from_nth; [unfold text in *; lia|]. intros i r r' Hr Hr'. destruct (Hpt i r' Hr') as (r0 & ev & w & A1 & _ & _ & _ & _ & _ & F & _).
    pose proof (eq_trans (eq_sym Hr) A1) as Q. injection Q as <-. exact F. }
  split; [exact Hparse'|]. split.
  { apply nth_error_ext. intros i. destruct (nth_error evs' i) as [ev'|] eqn:E'.
    - destruct (Hev' i ev' E') as (ev & w & E & _ & O & _). rewrite (map_nth_error _ _ _ E'), (map_nth_error _ _ _ E). congruence.
    - apply nth_error_None in E'. transitivity (@None (list (Z * list (FourVector RN)))); [|symmetry]; apply nth_error_None; rewrite map_length; lia. }
  split; [exact Hwn'|]. split.
  { intros i ev Hi Hk. pose proof (Hnone i ev Hi Hk) as Hw. destruct (nth_error records' i) as [r'|] eqn:Er'.
    - destruct (Hpt i r' Er') as (r & ev0 & w & A1 & _ & A3 & _ & _ & _ & _ & _ & H & _). refine (eq_trans (eq_trans Er' _) (eq_sym A1)). apply (f_equal Some). apply H. congruence.
    - refine (eq_trans Er' _). symmetry. apply (proj2 (nth_error_None _ _)). apply nth_error_None in Er'. unfold text in *; lia. }
  split.
  { intros i r r' k v Hr Hr' Hk Hn Hv. destruct (Hpt i r' Hr') as (r0 & ev0 & w & A1 & _ & _ & _ & _ & _ & _ & _ & _ & H & _). pose proof (eq_trans (eq_sym Hr) A1) as Q. injection Q as <-. eapply H; eauto. }
  split.
  - intros name Hn. destruct (chosen_nth name Hn) as [j Hj]. exists (map (fun ev => nth (S j) (ev_weights ev) 0) evs), (map (fun ev => nth (S j) (ev_weights ev) 0) evs').
    split; [apply Hnamed; assumption|]. split; [apply Hnamed; assumption|]. pose proof (HsumS j) as H. unfold total in H. rewrite !map_map in H. exact H.
  - destruct (Hfirst records evs Hparse Hlen Hwn) as [F1 F2]. destruct (Hfirst records' evs' Hparse' Hlen' Hwn') as [F1' F2'].
    eexists _, _. split; [exact F1|]. split; [exact F1'|].
    assert (H : total (map ev_weights evs') 0 = total (map ev_weights evs) 0); [|unfold total in H; rewrite !map_map in H; exact H].
    destruct (nth_error l 0) as [x|] eqn:E0; [|apply nth_error_None in E0; pose proof l_ne as Hl0; destruct l; [congruence|cbn in E0; lia]]. destruct (is_name names x) eqn:Ex.
    + apply is_name_In in Ex. rewrite F2, F2' by (exists x; auto). apply HsumS.
    + apply Hsum. intros i ev' ev w A B C. destruct (Hev' i ev' A) as (ev0 & w0 & B0 & C0 & _ & _ & _ & H). rewrite B in B0. rewrite C in C0. injection B0 as <-. injection C0 as <-.
      apply H. intros name E Hn. injection E as <-. apply is_name_In in Hn. congruence.
Qed.
End Sums.
