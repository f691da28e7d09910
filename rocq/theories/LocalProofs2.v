(** Lemmas for C75: observables after a complete run. *)
From Coq Require Import Reals Lra List Arith Lia Permutation Ascii Bool ZArith.
From Verif Require Import Base BaseProofs Num ModelEvent SpecEvent EventProofs ModelText TextProofs ModelHepMC ModelLHEF ModelStripper ModelIO IOProofs FormatProofs
  ModelSeeds ModelNaive NaiveProofs SpecTree ModelVPTree VPTreeProofs2 SpecSearch RunProofs2 ModelResampler ModelDistance SpecDistance DistanceProofs DistanceProofs2
  ModelCluster ModelOpt ModelUnweight ModelCres SpecCres SpecWeights CresProofs CresProofs2 ModelMain SpecMain MainProofs MainProofs2 MainProofs3 ModelProgram ProgramProofs ProgramProofs2
  SumProofs SpecLocal LocalProofs.
Import ListNotations.
Local Open Scope R_scope.

Lemma Rsum_restrict {A} (p : A -> bool) (F G : A -> R) l : (forall x, p x = true -> F x = G x) -> (forall x, p x = false -> F x = 0) ->
  Rsum (map F l) = Rsum (map G (filter p l)).
Proof.
  intros H1 H0. rewrite (Rsum_split p F l). rewrite (Rsum_map_ext F (fun _ => 0) (filter (fun x => negb (p x)) l)).
  - rewrite Rsum_map_const. rewrite (Rsum_map_ext F G (filter p l)); [lra|]. intros x Hx. apply filter_In in Hx. apply H1, Hx.
  - intros x Hx. apply filter_In in Hx. apply H0. destruct (p x); [destruct Hx; discriminate|reflexivity].
Qed.

Lemma filter_restrict {A B} (p : A -> bool) (F : A -> B) (q : B -> bool) d l : q d = false ->
  length (filter q (map (fun e => if p e then F e else d) l)) = length (filter q (map F (filter p l))).
Proof.
  intros Hd. induction l as [|e l IH]; [reflexivity|]. cbn [map filter]. destruct (p e).
  - cbn [map filter]. destruct (q (F e)); cbn [length]; rewrite IH; reflexivity.
  - rewrite Hd. exact IH.
Qed.

(** the same observable, in terms of events that know their position *)
Definition obs_ev (f : nat -> R) (l : list (Event RN)) : R := Rsum (map (fun e => f (ev_id e) * nth 0 (ev_weights e) 0) l).

Lemma obs_numbered f (g : Event RN -> list R) (l : list (Event RN)) : map ev_id l = seq 0 (length l) ->
  observable f (map g l) 0 = Rsum (map (fun e => f (ev_id e) * nth 0 (g e) 0) l).
Proof.
  intros Hid. unfold observable. rewrite map_length. rewrite (Rsum_by_index (mkEvent 0 [] []) (fun e => f (ev_id e) * nth 0 (g e) 0) l).
  apply Rsum_map_ext. intros i Hi. apply in_seq in Hi.
  assert (E : ev_id (nth i l (mkEvent 0 [] [])) = i).
  { rewrite <- (map_nth ev_id l (mkEvent 0 [] []) i). rewrite Hid. cbn [ev_id]. rewrite seq_nth by lia. reflexivity. }
  rewrite E. rewrite (nth_indep _ [] (g (mkEvent 0 [] []))) by (rewrite map_length; lia). rewrite (map_nth g l (mkEvent 0 [] []) i). reflexivity.
Qed.
Lemma obs_positions f (l : list (Event RN)) : 
  observable (fun j => f (ev_id (nth j l (mkEvent 0 [] [])))) (map ev_weights l) 0 = obs_ev f l.
Proof.
  unfold observable, obs_ev. rewrite map_length. rewrite (Rsum_by_index (mkEvent 0 [] []) (fun e => f (ev_id e) * nth 0 (ev_weights e) 0) l).
  apply Rsum_map_ext. intros i Hi. apply in_seq in Hi.
  rewrite (nth_indep _ [] (ev_weights (N := RN) (mkEvent 0 [] []))) by (rewrite map_length; lia). rewrite (map_nth ev_weights l (mkEvent 0 [] []) i). reflexivity.
Qed.
Lemma obs_table f (W : list (list R)) (l : list (Event RN)) :
  NoDup (map ev_id l) -> (forall e, In e l -> (ev_id e < length W)%nat) ->
  (forall e, In e l -> nth_error W (ev_id e) = Some (ev_weights e)) ->
  (forall n, (n < length W)%nat -> ~ In n (map ev_id l) -> exists d, nth_error W n = Some d /\ nth 0 d 0 = 0) ->
  observable f W 0 = obs_ev f l.
Proof.
  intros Hnd Hlt H1 H2. unfold observable.
  assert (Hext : forall i, ~ In i (map ev_id l) -> f i * nth 0 (nth i W []) 0 = 0).
  { intros i Hi. destruct (Nat.lt_ge_cases i (length W)) as [Hl|Hl].
    - destruct (H2 i Hl Hi) as (d & H3 & Hd). apply (nth_error_nth W i []) in H3. rewrite H3, Hd. ring.
    - rewrite (nth_overflow W) by exact Hl. cbn. ring. }
  pose proof (@Rsum_change (length W) (map ev_id l) (fun i => f i * nth 0 (nth i W []) 0) (fun _ => 0) Hnd) as Hc.
  assert (Hin : forall i, In i (map ev_id l) -> (i < length W)%nat).
  { intros i Hi. apply in_map_iff in Hi. destruct Hi as (e & <- & He). auto. }
  specialize (Hc Hin Hext). rewrite !Rsum_map_const in Hc. rewrite map_map in Hc.
  assert (E : Rsum (map (fun x => f (ev_id x) * nth 0 (nth (ev_id x) W []) 0) l) = obs_ev f l).
  { unfold obs_ev. apply Rsum_map_ext. intros e He. specialize (H1 e He). apply (nth_error_nth W (ev_id e) []) in H1. rewrite H1. reflexivity. }
  lra.
Qed.

Section Run.
Context (double : parser RN) (sort : sorter) (MAX : R) (km : assignment RN) (neutrino hadron : Z -> bool)
  (delta_r : PseudoJet RN -> PseudoJet RN -> RN)
  (cluster_if : JetAlgorithm -> RN -> (PseudoJet RN -> bool) -> list (PseudoJet RN) -> list (PseudoJet RN))
  (choose : chooser) (psum : list R -> R) (draws : nat -> R)
  (shuffle : list (Event RN + @cres_error (option read_error)) -> list (Event RN + @cres_error (option read_error)))
  (opt : cres_opt RN) (mw : bool) (c : DefaultClustering RN).
Notation cluster := (default_cluster neutrino hadron delta_r cluster_if mw sort c).
Notation max := (match co_max_cell_size opt with Some max => max | None => MAX end).
Hypothesis Hsort : sort_ok sort.
Hypothesis Hkm : km_ok km.
Hypothesis Hch : choose_ok choose.
Hypothesis Hs : reorders shuffle.
Hypothesis Hmin : co_minweight opt = 0.

Lemma clustered_pairs names records evs evs0 : Forall2 (fun r ev => try_convert double mw names sort r = inl ev) records evs ->
  events_of (try_convert double mw names sort) (try_cluster cluster) (map inl records) evs0 ->
  Forall2 (fun e e0 => ev_weights e0 = ev_weights e /\ exists e', cluster e = Some e' /\ ev_out e0 = ev_out e') evs evs0.
Proof.
  intros Hc [Hl He]. apply Forall2_from_nth.
  - rewrite Hl, map_length. symmetry. exact (Forall2_len _ _ _ _ _ Hc).
  - intros i e e0 Hi Hi0. destruct (nth_error records i) as [r|] eqn:Er.
    2:{ apply nth_error_None in Er. assert (i < length evs)%nat by (apply nth_error_Some; congruence). rewrite (Forall2_len _ _ _ _ _ Hc) in Er. lia. }
    destruct (Forall2_nth _ _ _ _ _ Hc i r Er) as (e1 & E1 & Hr). rewrite Hi in E1. injection E1 as <-.
    destruct (He i _ _ (map_nth_error _ _ _ Er) Hi0) as (r' & ev & ev' & A & B & C & X). injection A as <-. rewrite Hr in B. injection B as <-.
    unfold try_cluster in C. destruct (cluster e) as [e2|] eqn:Ec; [|discriminate]. injection C as <-. destruct X as [_ ->]. cbn [ev_weights ev_out].
    destruct (default_cluster_some neutrino hadron delta_r cluster_if mw sort c e) as (e3 & E3 & Hw & _). rewrite Ec in E3. injection E3 as <-.
    split; [exact Hw|]. eauto.
Qed.

Lemma search_limited (used : list (Event RN)) : Forall (built sort) used ->
  limited_search (length used) (dist_wrapper (distance_of sort km opt) used) max (search_of sort choose opt (length used) (dist_wrapper (distance_of sort km opt) used) max).
Proof.
  intros Hb. unfold search_of. destruct (co_search opt).
  - apply (tree_limited RN (fun _ => True)); auto using RN_order.
  - apply (naive_limited RN (fun _ => True)); auto using RN_order.
    apply (wrapper_metric sort km (co_ptweight opt) Hsort Hkm used Hb).
Qed.

(** the input weights of the events that have particles after the clustering *)
Definition kept (evs : list (Event RN)) : sample := map (fun e => if keeps_particles cluster e then ev_weights e else [0]) evs.

(** for any resampling and distance; the events the resampling sees are clustered events with a number *)
Lemma run_observable_dist (dist : Event RN -> Event RN -> R) (limit : R) resample names records evs W f eps : mw = false \/ names = [] ->
  (forall used evs1, shaped mw 1 (map ev_weights used) -> resample used = Some (inl evs1) -> map ev_id evs1 = map ev_id used) ->
  (forall used evs1 f' eps, Forall (built sort) used -> shaped mw 1 (map ev_weights used) -> resample used = Some (inl evs1) -> 0 <= eps ->
     (forall i j ei ej, nth_error used i = Some ei -> nth_error used j = Some ej -> dist ei ej <= limit -> Rabs (f' j - f' i) <= eps) ->
     Rabs (observable f' (map ev_weights evs1) 0 - observable f' (map ev_weights used) 0) <= 2 * eps * INR (nnegative (map ev_weights used)) * total_abs (map ev_weights used) 0) ->
  Forall2 (fun r ev => try_convert double mw names sort r = inl ev) records evs ->
  run_on double mw names sort cluster shuffle resample (unweighter_of psum draws opt) (map inl records) = Wrote W ->
  0 <= eps ->
  (forall i j ei ej ei' ej' e1 e2, nth_error evs i = Some ei -> nth_error evs j = Some ej -> cluster ei = Some ei' -> cluster ej = Some ej' ->
     ev_out ei' <> [] -> ev_out ej' <> [] -> built sort e1 -> built sort e2 -> ev_id e1 = i -> ev_id e2 = j -> ev_out e1 = ev_out ei' -> ev_out e2 = ev_out ej' -> dist e1 e2 <= limit -> Rabs (f j - f i) <= eps) ->
  Rabs (observable f W 0 - observable f (kept evs) 0) <= 2 * eps * INR (nnegative (kept evs)) * total_abs (kept evs) 0.
Proof.
  intros Hm Hresid Hres Hc Hrun Heps Hf. unfold run_on in Hrun. rewrite map_map in Hrun. cbn beta iota in Hrun.
  assert (Hcl : forall e e' : Event RN, cluster e = Some e' -> ev_weights e' = ev_weights e).
  { intros e e' E. destruct (default_cluster_some neutrino hadron delta_r cluster_if mw sort c e) as (e2 & E2 & Hw & _). congruence. }
  destruct (run_wrote Hs Hsort Hrun) as (HlW & evs0 & used & evs1 & evs2 & Hev & Hp & Hr & Hu & Hid & HW).
  destruct (clustered_of double mw names sort cluster Hm Hcl records evs evs0 Hc Hev) as (Hw & _ & H1).
  pose proof (clustered_pairs names records evs evs0 Hc Hev) as Hpair.
  assert (Hsh0 : shaped mw 1 (map ev_weights evs0)) by (rewrite Hw; split; [lia|split; [auto|exact H1]]).
  pose proof (shaped_used Hsh0 Hp) as Hsh.
  assert (Hin : forall e, In e used -> In e evs0 /\ has_particles e = true).
  { intros e He. eapply Permutation_in in He; [|apply Permutation_sym; exact Hp]. apply filter_In in He. exact He. }
  assert (Hbu : Forall (built sort) used).
  { rewrite Forall_forall. intros e He. apply (clustered_built double sort neutrino hadron delta_r cluster_if mw c Hsort names records evs evs0 Hc Hev e (proj1 (Hin e He)) (proj2 (Hin e He))). }
  assert (E2 : evs2 = evs1).
  { unfold unweighter_of, lib_unweight, unweight in Hu. assert (Q : neqb (co_minweight opt) n0 = true) by (apply Reqb_true; exact Hmin). rewrite Q in Hu. injection Hu as <-. reflexivity. }
  subst evs2.
  pose proof (Hresid used evs1 Hsh Hr) as T1.
  assert (Hnd : NoDup (map ev_id evs1)) by (rewrite T1; eapply used_nodup; eauto).
  destruct (HW Hnd) as [W1 W2]. clear HW.
  assert (Hk : kept evs = map (fun e => if has_particles e then ev_weights e else [0]) evs0).
  { unfold kept. clear -Hpair. induction Hpair as [|e e0 l l0 (A & e' & B & C) _ IH]; [reflexivity|]. cbn [map]. rewrite IH. apply f_equal2; [|reflexivity].
    rewrite A. unfold keeps_particles. rewrite B. unfold has_particles. rewrite C. reflexivity. }
  assert (Hids : map ev_id evs0 = seq 0 (length evs0)).
  { rewrite (events_of_ids Hev). destruct Hev as [Hl _]. rewrite Hl. reflexivity. }
  assert (O0 : observable f (kept evs) 0 = obs_ev f used).
  { rewrite Hk. refine (eq_trans (obs_numbered f (fun e => if has_particles e then ev_weights e else [0]) evs0 Hids) _). unfold obs_ev.
    rewrite <- (Rsum_perm (Permutation_map (fun e => f (ev_id e) * nth 0 (ev_weights e) 0) Hp)).
    apply (Rsum_restrict has_particles); intros e ->; [reflexivity|]. cbn. ring. }
  assert (O1 : observable f W 0 = obs_ev f evs1).
  { apply obs_table.
    - exact Hnd.
    - intros e He. assert (X : (ev_id e < length W)%nat) by (rewrite HlW; apply Hid; exact He). exact X.
    - exact W1.
    - intros n Hn Hi. exists (weights_default mw). split; [apply W2; [rewrite <- HlW; exact Hn|exact Hi]|destruct mw; reflexivity]. }
  set (f' := fun j => f (ev_id (nth j used (mkEvent (N := RN) 0 [] [])))).
  assert (P0 : observable f' (map ev_weights used) 0 = obs_ev f used) by apply obs_positions.
  assert (P1 : observable f' (map ev_weights evs1) 0 = obs_ev f evs1).
  { rewrite <- (obs_positions f evs1). unfold f', observable. apply Rsum_map_ext. intros i _. f_equal. f_equal.
    rewrite <- !(map_nth ev_id). rewrite T1. reflexivity. }
  assert (N0 : nnegative (kept evs) = nnegative (map ev_weights used) /\ total_abs (kept evs) 0 = total_abs (map ev_weights used) 0).
  { rewrite Hk. split.
    - unfold nnegative. 
      refine (eq_trans (filter_restrict has_particles ev_weights (fun w : list R => if Rlt_dec (nth 0 w 0) 0 then true else false) [0] evs0 _) _).
      { cbn [nth]. destruct (Rlt_dec 0 0); [lra|reflexivity]. }
      apply Permutation_length.
      assert (PF : forall (p : list R -> bool) l l', Permutation l l' -> Permutation (filter p l) (filter p l')).
      { intros p l l'. induction 1 as [|x l l' _ IH|x y l|l l' l'' _ IH1 _ IH2]; [constructor| | |eauto using Permutation_trans].
        - cbn [filter]. destruct (p x); [constructor|]; exact IH.
        - cbn [filter]. destruct (p x), (p y); auto using Permutation_refl, perm_swap. }
      apply PF. apply Permutation_map. exact Hp.
    - unfold total_abs. rewrite <- (Rsum_perm (Permutation_map (fun w => Rabs (nth 0 w 0)) (Permutation_map ev_weights Hp))). rewrite !map_map.
      apply (Rsum_restrict has_particles); intros e ->; [reflexivity|]. cbn. apply Rabs_R0. }
  destruct N0 as [-> ->]. rewrite O0, O1, <- P0, <- P1.
  apply Hres; auto.
  - intros i j ei ej Hi Hj Hd. unfold f'. rewrite (nth_error_nth used i _ Hi), (nth_error_nth used j _ Hj).
    apply nth_error_In in Hi, Hj. 
    assert (Q : forall e, In e used -> exists a a', nth_error evs (ev_id e) = Some a /\ cluster a = Some a' /\ ev_out e = ev_out a' /\ ev_out a' <> []).
    { intros e He. destruct (Hin e He) as [I1 I2]. pose proof (events_of_nth Hev I1) as I3.
      assert (Hlp : length evs0 = length evs) by (symmetry; apply (Forall2_len _ _ _ _ _ Hpair)).
      destruct (nth_error evs (ev_id e)) as [a|] eqn:Ea.
      2:{ apply nth_error_None in Ea. assert (ev_id e < length evs0)%nat by (apply nth_error_Some; congruence). lia. }
      destruct (Forall2_nth _ _ _ _ _ Hpair _ a Ea) as (e0 & F1 & F2 & a' & F3 & F4). rewrite I3 in F1. injection F1 as <-.
      exists a, a'. split; [reflexivity|]. split; [exact F3|]. split; [exact F4|]. rewrite <- F4. intros X. unfold has_particles in I2. rewrite X in I2. discriminate. }
    destruct (Q ei Hi) as (a & a' & A1 & A2 & A3 & A4). destruct (Q ej Hj) as (b & b' & B1 & B2 & B3 & B4).
    rewrite Forall_forall in Hbu.
    exact (Hf _ _ a b a' b' ei ej A1 B1 A2 B2 A4 B4 (Hbu _ Hi) (Hbu _ Hj) eq_refl eq_refl A3 B3 Hd).
Qed.

Lemma run_observable_gen resample names records evs W f eps : mw = false \/ names = [] ->
  (forall used evs1, shaped mw 1 (map ev_weights used) -> resample used = Some (inl evs1) -> map ev_id evs1 = map ev_id used) ->
  (forall used evs1 f' eps, Forall (built sort) used -> shaped mw 1 (map ev_weights used) -> resample used = Some (inl evs1) -> 0 <= eps ->
     (forall i j ei ej, nth_error used i = Some ei -> nth_error used j = Some ej -> distance_of sort km opt ei ej <= max -> Rabs (f' j - f' i) <= eps) ->
     Rabs (observable f' (map ev_weights evs1) 0 - observable f' (map ev_weights used) 0) <= 2 * eps * INR (nnegative (map ev_weights used)) * total_abs (map ev_weights used) 0) ->
  Forall2 (fun r ev => try_convert double mw names sort r = inl ev) records evs ->
  run_on double mw names sort cluster shuffle resample (unweighter_of psum draws opt) (map inl records) = Wrote W ->
  0 <= eps ->
  (forall i j ei ej ei' ej' d, nth_error evs i = Some ei -> nth_error evs j = Some ej -> cluster ei = Some ei' -> cluster ej = Some ej' ->
     ev_out ei' <> [] -> ev_out ej' <> [] -> distance (N := RN) sort km (co_ptweight opt) ei' ej' = Some d -> d <= max -> Rabs (f j - f i) <= eps) ->
  Rabs (observable f W 0 - observable f (kept evs) 0) <= 2 * eps * INR (nnegative (kept evs)) * total_abs (kept evs) 0.
Proof.
  intros Hm Hresid Hres Hc Hrun Heps Hf. apply (run_observable_dist (distance_of sort km opt) max resample names records evs W f eps Hm); try assumption.
  intros i j a b a' b' ei ej A1 B1 A2 B2 A4 B4 Hi Hj _ _ A3 B3 Hd.
  destruct (ddist_metric sort km (co_ptweight opt) Hsort Hkm ei ej ej Hi Hj Hj) as (D1 & _).
  apply (Hf _ _ a b a' b' (ddist sort km (co_ptweight opt) ei ej) A1 B1 A2 B2 A4 B4); [|exact Hd].
  unfold distance in *. rewrite <- A3, <- B3. exact D1.
Qed.

Lemma run_observable names records evs W f eps : mw = false \/ names = [] ->
  Forall2 (fun r ev => try_convert double mw names sort r = inl ev) records evs ->
  run_on double mw names sort cluster shuffle (resampler_with sort MAX km choose mw opt) (unweighter_of psum draws opt) (map inl records) = Wrote W ->
  0 <= eps ->
  (forall i j ei ej ei' ej' d, nth_error evs i = Some ei -> nth_error evs j = Some ej -> cluster ei = Some ei' -> cluster ej = Some ej' ->
     ev_out ei' <> [] -> ev_out ej' <> [] -> distance (N := RN) sort km (co_ptweight opt) ei' ej' = Some d -> d <= max -> Rabs (f j - f i) <= eps) ->
  Rabs (observable f W 0 - observable f (kept evs) 0) <= 2 * eps * INR (nnegative (kept evs)) * total_abs (kept evs) 0.
Proof.
  intros Hm. apply (run_observable_gen (resampler_with sort MAX km choose mw opt)); [exact Hm| |].
  - intros used evs1 Hsh Hr. unfold resampler_with in Hr. apply (lib_resample_facts Hsh Hr).
  - intros used evs1 f' eps' Hbu Hsh Hr He Hf. unfold resampler_with, lib_resample in Hr.
    destruct (resampler_resample mw sort (co_strategy opt) (search_of sort choose opt) (distance_of sort km opt) max used) as [[evs1' cells]|] eqn:Er; [|discriminate].
    injection Hr as ->. eapply observable_resampler; eauto. apply search_limited. exact Hbu.
Qed.
End Run.
