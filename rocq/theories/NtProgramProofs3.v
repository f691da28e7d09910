(** Proofs about the program on ntuples, 3: input and output files. *)
From Coq Require Import Reals Lra Permutation.
From Verif Require Import Base BaseProofs Num ModelEvent SpecWeights ModelText SpecRecord ModelNtuple SpecNtuple NtupleProofs IOProofs MainProofs
  ModelCres SpecCres CresProofs CresProofs2 ModelNtProgram SpecNtProgram NtProgramProofs NtProgramProofs2.
From Coq Require Import Lia.

Section Program.
Context (N : NumOps) (Other : Type) (mw : bool) (names : list text) (sort : sorter) (cluster : Event N -> option (Event N))
  (shuffle : list (Event N + @cres_error unit) -> list (Event N + @cres_error unit))
  (resample : list (Event N) -> option (list (Event N) + unit)).
Notation event := (ntuple_event N Other).
Notation convert := (convert_ntuple mw sort names).
Notation run := (nt_run (Other := Other) mw names sort cluster shuffle resample lib_no_unweight).
Notation program := (nt_program (Other := Other) mw names sort cluster shuffle resample lib_no_unweight).
Hypothesis Hshuffle : reorders shuffle.
Hypothesis Hsort : sort_ok sort.

Lemma program_run fuel (files outs : list (list event)) : length (concat files) < fuel -> program fuel files = NtDone outs ->
  exists W, run (concat files) = Wrote W /\
    (length W = length (concat files) -> Forall (fun ws => ws = [] \/ length ws = nused mw names) W ->
       Forall2 (fun f o => length o = length f) files outs /\ Forall2 (rewritten N Other mw names) (combine W (concat files)) (concat outs)).
Proof.
  intros Hf H. unfold nt_program in H. destruct (read_files N Other files fuel Hf) as (s0 & s & E0 & E & Es & Ho). rewrite E0, E in H.
  destruct (run (concat files)) as [|e|W] eqn:Er; [discriminate|destruct e; discriminate|]. exists W. split; [reflexivity|]. intros Hl Hw.
  rewrite <- Es in Ho, Hl. destruct (update_all_spec N Other mw names W s Ho Hw Hl) as (s' & E1 & F1 & F2). rewrite E1 in H. injection H as <-. rewrite Es in *. auto.
Qed.
Lemma program_done fuel (files : list (list event)) W : length (concat files) < fuel -> run (concat files) = Wrote W ->
  length W = length (concat files) -> Forall (fun ws => ws = [] \/ length ws = nused mw names) W -> exists outs, program fuel files = NtDone outs.
Proof.
  intros Hf Hr Hl Hw. unfold nt_program. destruct (read_files N Other files fuel Hf) as (s0 & s & E0 & E & Es & Ho). rewrite E0, E, Hr.
  rewrite <- Es in Ho, Hl. destruct (update_all_spec N Other mw names W s Ho Hw Hl) as (s' & E1 & _). rewrite E1. eauto.
Qed.

(** Lists of the same lengths *)
Lemma pointwise_files A (P : A -> A -> Prop) : forall files outs : list (list A), Forall2 (fun f o => length o = length f) files outs ->
  Forall2 P (concat files) (concat outs) -> Forall2 (Forall2 P) files outs.
Proof.
  induction 1 as [|f o files outs Hl _ IH]; intros H; [constructor|]. cbn [concat] in H. apply Forall2_app_inv_l in H as (o1 & o2 & H1 & H2 & E).
  pose proof (BaseProofs.Forall2_len H1) as L. assert (o1 = o /\ o2 = concat outs) as [-> ->].
  { assert (E1 : firstn (length o) (o ++ concat outs) = firstn (length o1) (o1 ++ o2)) by (rewrite E; f_equal; lia).
    rewrite !firstn_app, !Nat.sub_diag, !firstn_all in E1. cbn [firstn] in E1. rewrite !app_nil_r in E1. subst o1. split; [reflexivity|]. apply app_inv_head in E. auto. }
  constructor; auto.
Qed.
Lemma combine_forall2 A B C (P : A * B -> C -> Prop) : forall (l : list A) (m : list B) (n : list C), length l = length m -> Forall2 P (combine l m) n ->
  length n = length m /\ forall i a b c, nth_error l i = Some a -> nth_error m i = Some b -> nth_error n i = Some c -> P (a, b) c.
Proof.
  induction l as [|a l IH]; intros [|b m] n Hl H; try discriminate; cbn [combine] in H.
  - inversion H; subst. split; [reflexivity|]. intros [|i]; discriminate.
  - inversion H as [|? c ? n' H1 H2]; subst. destruct (IH m n') as [I1 I2]; [cbn in Hl; lia|exact H2|]. split; [cbn [length]; rewrite I1; reflexivity|].
    intros [|i] a' b' c' Ha Hb Hc; cbn [nth_error] in *; [congruence|eauto].
Qed.

Lemma rewritten_same ws (r r' : event) : ntuple_rewritten mw names ws r r' -> same_but_weights mw names r r'.
Proof. intros [[_ ->]|(_ & _ & H)]; [apply same_refl|exact H]. Qed.
Lemma rewritten_weights ws ws0 (r r' : event) : ntuple_rewritten mw names ws r r' -> ntuple_weights mw names r ws0 -> ntuple_weights mw names r' (written_weights ws0 ws).
Proof. intros [[-> ->]|(Hne & H & _)] H0; [exact H0|]. unfold written_weights. destruct ws; [congruence|]. exact H. Qed.

Lemma program_records fuel (files outs : list (list event)) :
  (forall e e', cluster e = Some e' -> ev_weights e' = ev_weights e) ->
  (forall s s', shaped mw (nused mw names) (map ev_weights s) -> resample s = Some (inl s') -> map ev_id s' = map ev_id s /\ shaped mw (nused mw names) (map ev_weights s')) ->
  length (concat files) < fuel -> program fuel files = NtDone outs ->
  exists W evs evs0, run (concat files) = Wrote W /\ length W = length (concat files) /\
    Forall2 (fun r ev => convert r = Some ev) (concat files) evs /\
    events_of (nt_convert mw names sort) (nt_cluster cluster) (map inl (concat files)) evs0 /\
    Forall2 (fun e e0 => ev_weights e0 = ev_weights e /\ has_particles e0 = identified cluster e) evs evs0 /\
    shaped mw (nused mw names) (map ev_weights evs0) /\
    Forall2 (Forall2 (same_but_weights mw names)) files outs /\ length (concat outs) = length (concat files) /\
    (forall i ws ev r', nth_error W i = Some ws -> nth_error evs i = Some ev -> nth_error (concat outs) i = Some r' -> ntuple_weights mw names r' (written_weights (ev_weights ev) ws)) /\
    (forall i r r' ev, nth_error (concat files) i = Some r -> nth_error (concat outs) i = Some r' -> convert r = Some ev -> identified cluster ev = false ->
       if mw then r' = r else nt_weight r' = n0).
Proof.
  intros Hcl Hres Hf Hp. destruct (program_run fuel files outs Hf Hp) as (W & Hr & H).
  destruct (run_facts N Other mw names sort cluster shuffle resample Hshuffle Hsort _ W Hcl Hres Hr) as (evs & evs0 & Hl & Hconv & Hev & H0 & Hsh & Hw & Hdef).
  destruct (H Hl Hw) as [Hlen Hrew]. destruct (combine_forall2 _ _ _ _ _ _ _ Hl Hrew) as [Hlo Hpt]. clear H.
  assert (Hnth : forall i r', nth_error (concat outs) i = Some r' -> exists r ev ws, nth_error (concat files) i = Some r /\ nth_error evs i = Some ev /\ nth_error W i = Some ws /\
     convert r = Some ev /\ ntuple_rewritten mw names ws r r').
  { intros i r' Hi. assert (Hil : i < length (concat outs)) by (apply nth_error_Some; congruence).
    destruct (nth_error (concat files) i) as [r|] eqn:E1; [|apply nth_error_None in E1; lia]. destruct (nth_error W i) as [ws|] eqn:E2; [|apply nth_error_None in E2; lia].
    destruct (Forall2_nth _ _ _ _ _ Hconv i r E1) as (ev & E3 & E4). exists r, ev, ws. repeat (split; [auto; fail|]). exact (Hpt i ws r r' E2 E1 Hi). }
  exists W, evs, evs0. repeat (split; [assumption|]). split.
  { apply pointwise_files; [exact Hlen|]. apply Forall2_from_nth; [lia|]. intros i r r' Hi Hi'. destruct (Hnth i r' Hi') as (r0 & ev & ws & A & _ & _ & _ & B). rewrite Hi in A. injection A as <-. eapply rewritten_same. exact B. }
  split; [exact Hlo|]. split.
  - intros i ws ev r' Hi1 Hi2 Hi3. destruct (Hnth i r' Hi3) as (r & ev0 & ws0 & A & B & C & E & F). rewrite Hi2 in B. rewrite Hi1 in C. injection B as <-. injection C as <-.
    eapply rewritten_weights; [exact F|]. apply (convert_weights _ _ _ _ _ _ _ E).
  - intros i r r' ev Hi1 Hi2 Hc Hid. destruct (Hnth i r' Hi2) as (r0 & ev0 & ws0 & A & B & C & E & F). rewrite Hi1 in A. injection A as <-. rewrite Hc in E. injection E as <-.
    rewrite (Hdef i ev B Hid) in C. injection C as <-. destruct F as [[Fe ->]|(Fe & Fw & _)].
    + unfold weights_default in Fe. destruct mw; [reflexivity|discriminate].
    + unfold weights_default in *. destruct mw eqn:Em; [congruence|]. destruct Fw as (w2 & me & me2 & Fw & _). injection Fw. auto.
Qed.
End Program.

(** Sums *)
Local Open Scope R_scope.
Section Sums.
Context (Other : Type) (mw : bool) (names : list text) (sort : sorter) (cluster : Event RN -> option (Event RN))
  (shuffle : list (Event RN + @cres_error unit) -> list (Event RN + @cres_error unit))
  (resample : list (Event RN) -> option (list (Event RN) + unit)).
Notation event := (ntuple_event RN Other).
Notation convert := (convert_ntuple (N := RN) mw sort names).
Hypothesis Hshuffle : reorders shuffle.
Hypothesis Hsort : sort_ok sort.
Hypothesis Hcl : forall e e', cluster e = Some e' -> ev_weights e' = ev_weights e.
Hypothesis Hres : forall s s', shaped mw (nused mw names) (map ev_weights s) -> resample s = Some (inl s') ->
  map ev_id s' = map ev_id s /\ map ev_out s' = map ev_out s /\ shaped mw (nused mw names) (map ev_weights s') /\
  forall k, total (map ev_weights s') k = total (map ev_weights s) k.

(** The events of which the weights are counted *)
Definition counted (r : event) : bool := mw || match convert r with Some ev => identified cluster ev | None => false end.

Lemma Rsum_pointwise A (f : A -> R) : forall (l : list A) (s : list (list R)) k, length l = length s ->
  (forall i r ws, nth_error l i = Some r -> nth_error s i = Some ws -> nth k ws 0 = f r) -> total s k = Rsum (map f l).
Proof.
  induction l as [|r l IH]; intros [|ws s] k Hl H; try discriminate; [reflexivity|]. unfold total in *. cbn [map Rsum fold_right].
  apply (f_equal2 Rplus); [apply (H 0%nat r ws); reflexivity|]. apply IH; [cbn in Hl; lia|intros i; apply (H (S i))].
Qed.
Lemma filter_total (l : list (Event RN)) k : total (map ev_weights l) k - total (map ev_weights (filter (fun e => negb (has_particles e)) l)) k = total (map ev_weights (filter has_particles l)) k.
Proof.
  assert (C : forall (e : Event RN) m, total (map ev_weights (e :: m)) k = nth k (ev_weights e) 0 + total (map ev_weights m) k) by reflexivity.
  induction l as [|e l IH]; [exact (Rminus_0_r 0)|]. cbn [filter]. rewrite C. destruct (has_particles e); cbn [negb]; rewrite C; rewrite <- IH; ring.
Qed.

Lemma program_sums fuel (files outs : list (list event)) f : (length (concat files) < fuel)%nat ->
  nt_program mw names sort cluster shuffle resample lib_no_unweight fuel files = NtDone outs ->
  chosen mw names f -> Rsum (map f (concat outs)) = Rsum (map f (filter counted (concat files))).
Proof.
  intros Hf Hp Hc. destruct (program_records RN Other mw names sort cluster shuffle resample Hshuffle Hsort fuel files outs Hcl) as
    (W & evs & evs0 & Hr & Hl & Hconv & Hev & H0 & Hsh & _ & Hlo & Hw & _); [|exact Hf|exact Hp|].
  { intros s s' A B. destruct (Hres s s' A B) as (C & _ & E & _). auto. }
  destruct (chosen_position RN Other mw names f Hc) as [k Hk].
  assert (Hww : map ev_weights evs0 = map ev_weights evs) by (clear -H0; induction H0 as [|e e0 a b [H _] _ IH]; [reflexivity|exact (f_equal2 cons H IH)]).
  pose proof (BaseProofs.Forall2_len Hconv) as Hle. pose proof (BaseProofs.Forall2_len H0) as Hle0.
  pose proof (run_total_no_unweight_gen Hres Hshuffle Hsort Hev Hsh k Hr) as T.
  assert (T1 : total (written (map ev_weights evs0) W) k = Rsum (map f (concat outs))).
  { apply Rsum_pointwise.
    - unfold written. rewrite map_length, combine_length, map_length. change (num RN) with R in *. unfold sample in *. lia.
    - intros i r' ws Hi Hi2. unfold written in Hi2. rewrite Hww in Hi2.
      destruct (nth_error evs i) as [ev|] eqn:E1.
      2:{ apply nth_error_None in E1. assert (i < length (concat outs))%nat by (apply nth_error_Some; congruence). lia. }
      destruct (nth_error W i) as [w|] eqn:E2.
      2:{ apply nth_error_None in E2. assert (i < length (concat outs))%nat by (apply nth_error_Some; congruence). lia. }
      assert (E3 : nth_error (combine (map ev_weights evs) W) i = Some (ev_weights ev, w)).
      { clear -E1 E2. revert W i E1 E2. induction evs as [|e evs IH]; intros [|a W] [|i] E1 E2; try discriminate; [cbn in *; congruence|]. cbn [map combine nth_error] in *. auto. }
      rewrite (map_nth_error _ _ _ E3) in Hi2. injection Hi2 as <-. cbn [fst snd]. apply nth_error_nth. apply Hk. apply (Hw i w ev r' E2 E1 Hi). }
  rewrite T1 in T. rewrite T. clear T T1 Hw Hlo Hp Hr Hl Hev.
  assert (Hpt : forall i r e0, nth_error (concat files) i = Some r -> nth_error evs0 i = Some e0 -> nth k (ev_weights e0) 0 = f r /\ counted r = (mw || has_particles e0)%bool).
  { intros i r e0 Hi Hi0. destruct (Forall2_nth _ _ _ _ _ Hconv i r Hi) as (ev & E1 & E2). destruct (Forall2_nth _ _ _ _ _ H0 i ev E1) as (e1 & E3 & E4 & E5).
    rewrite Hi0 in E3. injection E3 as <-. split.
    - apply nth_error_nth. apply Hk. rewrite E4. apply (convert_weights _ _ _ _ _ _ _ E2).
    - unfold counted. rewrite E2, E5. reflexivity. }
  assert (Hlen : length (concat files) = length evs0) by lia. clear -Hpt Hlen.
  assert (Tot : forall p q, (forall i r e0, nth_error (concat files) i = Some r -> nth_error evs0 i = Some e0 -> p r = q e0 /\ nth k (ev_weights e0) 0 = f r) ->
     total (map ev_weights (filter q evs0)) k = Rsum (map f (filter p (concat files)))).
  { intros p q. revert evs0 Hlen Hpt. induction (concat files) as [|r l IH]; intros [|e0 evs0] Hlen Hpt H; try discriminate; [reflexivity|].
    destruct (H 0%nat r e0 eq_refl eq_refl) as [A B]. cbn [filter]. rewrite A.
    assert (IHe : total (map ev_weights (filter q evs0)) k = Rsum (map f (filter p l))).
    { apply IH; [cbn in Hlen; lia|intros i; apply (Hpt (S i))|intros i; apply (H (S i))]. }
    destruct (q e0); [|exact IHe]. unfold total in *. cbn [map Rsum fold_right]. exact (f_equal2 Rplus B IHe). }
  destruct mw eqn:Em.
  - rewrite <- (Tot counted (fun _ => true)).
    + f_equal. f_equal. clear. induction evs0 as [|e l IH]; [reflexivity|]. cbn [filter]. rewrite <- IH. reflexivity.
    + intros i r e0 A B. destruct (Hpt i r e0 A B) as [C E]. split; [rewrite E; reflexivity|exact C].
  - rewrite filter_total. apply Tot. intros i r e0 A B. destruct (Hpt i r e0 A B) as [C E]. split; [exact E|exact C].
Qed.
End Sums.
