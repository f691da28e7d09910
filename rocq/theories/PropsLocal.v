(** Property C75: the resampling acts locally.  Events far away from all events with negative weight
    keep their weights, and observables that do not resolve the cells keep their predictions. *)
From Coq Require Import Reals Lra List Arith Lia Permutation Ascii Bool ZArith SpecFloat.
From Verif Require Import Base BaseProofs Num ModelEvent SpecEvent EventProofs ModelText SpecText SpecFormats TextProofs ModelHepMC ModelLHEF ModelStripper ModelIO IOProofs FormatProofs FileProofs2 FileProofs3
  TextExamples PropsHepMC PropsFormats PropsRecord
  ModelSeeds ModelCell ModelNaive NaiveProofs SpecTree ModelVPTree VPTreeProofs2 SpecSearch RunProofs2 ModelResampler ModelDistance SpecDistance DistanceProofs DistanceProofs2
  ModelCluster ModelOpt SpecOpt ModelUnweight ModelCres SpecCres SpecWeights CresProofs CresProofs2 ModelMain SpecMain MainProofs MainProofs2 MainProofs3 SpecPanic PanicProofs2 ModelProgram ProgramProofs ProgramProofs2
  PropsTree PropsOpt PropsMain PropsPanic PropsProgram SumProofs SpecLocal LocalProofs LocalProofs2.
Import ListNotations.
Local Open Scope R_scope.

(** The two searches of the program never report an event beyond the limit, in any arithmetic whose
    comparison is an order on the distances. *)
Theorem C75_tree_limited : forall (N : NumOps) (D : N -> Prop) sort choose n (dist : nat -> nat -> N) max,
  order_on N D -> sort_ok sort -> choose_ok choose ->
  (forall i j, (i < n)%nat -> (j < n)%nat -> D (dist i j)) ->
  limited_search n dist max (tree_nearest sort choose n dist max).
Proof. intros. eapply tree_limited; eassumption. Qed.
Print Assumptions C75_tree_limited.
Theorem C75_naive_limited : forall (N : NumOps) (D : N -> Prop) choose n (dist : nat -> nat -> N) max,
  order_on N D -> choose_ok choose -> D max ->
  (forall i j, (i < n)%nat -> (j < n)%nat -> D (dist i j)) -> (forall i j, (i < n)%nat -> (j < n)%nat -> dist i j = dist j i) ->
  limited_search n dist max (naive_nearest choose n dist max).
Proof. intros. eapply naive_limited; eassumption. Qed.
Print Assumptions C75_naive_limited.

(** An event that is farther away than the maximum cell size from every event with negative weight is
    returned unchanged, in every such arithmetic, in particular for floating-point numbers. *)
Theorem C75_untouched : forall (N : NumOps) (D : N -> Prop) mw sort strategy (algo : search_algo N) dist max (evs evs' : list (Event N)) cells i ei,
  sort_ok sort -> order_on N D -> (forall e w, In e evs -> ev_weight e = Some w -> D w) ->
  limited_search (length evs) (dist_wrapper dist evs) max (algo (length evs) (dist_wrapper dist evs) max) ->
  nth_error evs i = Some ei ->
  (forall j ej wj, nth_error evs j = Some ej -> ev_weight ej = Some wj -> nltb wj n0 = true -> j <> i /\ nleb (dist ej ei) max = false) ->
  resampler_resample mw sort strategy algo dist max evs = Some (evs', cells) ->
  nth_error evs' i = Some ei.
Proof. intros. eapply untouched_events; eassumption. Qed.
Print Assumptions C75_untouched.

(** If an observable differs by at most [eps] between events within the maximum cell size, then its
    prediction changes by at most [2 eps] times the number of negative events times the sum of
    the absolute weights, for every component of the weights. *)
Theorem C75_smooth : forall f eps mw nw sort strategy (algo : search_algo RN) (dist : Event RN -> Event RN -> R) (max : R) (evs evs' : list (Event RN)) cells k,
  sort_ok sort -> shaped mw nw (map ev_weights evs) -> 0 <= eps ->
  limited_search (length evs) (dist_wrapper dist evs) max (algo (length evs) (dist_wrapper dist evs) max) ->
  (forall i j ei ej, nth_error evs i = Some ei -> nth_error evs j = Some ej -> dist ei ej <= max -> Rabs (f j - f i) <= eps) ->
  resampler_resample mw sort strategy algo dist max evs = Some (evs', cells) ->
  Rabs (observable f (map ev_weights evs') k - observable f (map ev_weights evs) k)
    <= 2 * eps * INR (nnegative (map ev_weights evs)) * total_abs (map ev_weights evs) k.
Proof. intros. eapply observable_resampler; eassumption. Qed.
Print Assumptions C75_smooth.

(** A set of events that is separated from all others by more than the maximum cell size keeps its
    sum of weights exactly, for every component of the weights. *)
Theorem C75_separated : forall (S : nat -> bool) mw nw sort strategy (algo : search_algo RN) (dist : Event RN -> Event RN -> R) (max : R) (evs evs' : list (Event RN)) cells k,
  sort_ok sort -> shaped mw nw (map ev_weights evs) ->
  limited_search (length evs) (dist_wrapper dist evs) max (algo (length evs) (dist_wrapper dist evs) max) ->
  (forall i j ei ej, nth_error evs i = Some ei -> nth_error evs j = Some ej -> S i <> S j -> max < dist ei ej) ->
  resampler_resample mw sort strategy algo dist max evs = Some (evs', cells) ->
  let sum l := Rsum (map (fun i => nth k (nth i (map ev_weights l) []) 0) (filter S (seq 0 (length l)))) in
  sum evs' = sum evs.
Proof.
  intros S mw nw sort strategy algo dist max evs evs' cells k Hsort Hs Hl Hsep H sum.
  set (f := fun i => if S i then 1 else 0).
  assert (E : forall l, sum l = observable f (map ev_weights l) k).
  { intros l. unfold sum, observable. rewrite map_length. symmetry. apply Rsum_restrict; intros i Hi; unfold f; rewrite Hi; [apply Rmult_1_l|apply Rmult_0_l]. }
  assert (B : Rabs (observable f (map ev_weights evs') k - observable f (map ev_weights evs) k) <= 2 * 0 * INR (nnegative (map ev_weights evs)) * total_abs (map ev_weights evs) k).
  { eapply observable_resampler; try eassumption; [apply Rle_refl|]. intros i j ei ej Hi Hj Hd. unfold f.
    destruct (S i) eqn:Si, (S j) eqn:Sj; try (unfold Rminus; rewrite Rplus_opp_r, Rabs_R0; apply Rle_refl);
      exfalso; assert (X : max < dist ei ej) by (eapply Hsep; try eassumption; congruence); exact (Rlt_not_le _ _ X Hd). }
  rewrite Rmult_0_r, !Rmult_0_l in B. rewrite !E. apply Rminus_diag_uniq. 
  pose proof (Rabs_pos (observable f (map ev_weights evs') k - observable f (map ev_weights evs) k)) as Q.
  destruct (Req_dec (observable f (map ev_weights evs') k - observable f (map ev_weights evs) k) 0) as [Z|Z]; [exact Z|].
  pose proof (Rabs_pos_lt _ Z) as Q1. exfalso. exact (Rlt_not_le _ _ Q1 B).
Qed.
Print Assumptions C75_separated.

(** one weight per event in the table *)
Lemma written_one_gen resample double sort neutrino hadron delta_r cluster_if psum draws shuffle (opt : cres_opt RN) c records evs W :
  total_step (fun _ => True) resample -> sort_ok sort -> reorders shuffle -> 0 <= co_minweight opt ->
  Forall2 (fun r ev => try_convert double false [] sort r = inl ev) records evs ->
  run_on double false [] sort (default_cluster neutrino hadron delta_r cluster_if false sort c) shuffle resample (unweighter_of psum draws opt) (map inl records) = Wrote W ->
  Forall (fun ws => exists w, ws = [w]) W.
Proof.
  intros Hres Hsort Hs Hmin Hcv Hrun. set (cluster := default_cluster neutrino hadron delta_r cluster_if false sort c) in *.
  pose proof (cluster_weights sort neutrino hadron delta_r cluster_if c) as Hcl. fold cluster in Hcl.
  pose proof Hrun as Hrun'. unfold run_on in Hrun'. rewrite map_map in Hrun'. cbn beta iota in Hrun'.
  destruct (run_wrote Hs Hsort Hrun') as (Hl1 & evs0 & used & evs1 & evs2 & Hev & Hperm & Hr & Hu & Hid & HWn).
  destruct (clustered_of double false [] sort cluster (or_introl eq_refl) Hcl records evs evs0 Hcv Hev) as (Hw & Hd & H1).
  assert (Hsh : shaped false 1 (map ev_weights evs0)) by (rewrite Hw; split; [lia|split; [auto|exact H1]]).
  pose proof (shaped_used Hsh Hperm) as (_ & _ & Hu1). unfold uniform in Hu1. rewrite Forall_map in Hu1.
  destruct (Hres used) as (e1 & E1 & F1 & N1 & _).
  { eapply Forall_impl; [|exact Hu1]. intros e H. cbn beta in H. destruct (ev_weights e) as [|w [|? ?]]; try discriminate. exists w. split; [reflexivity|exact I]. }
  { eapply used_nodup; eauto. }
  rewrite E1 in Hr. injection Hr as ->.
  destruct (minweight_total psum draws opt Hmin evs1) as (e2 & E2 & F2 & N2 & _).
  { eapply Forall_impl; [|exact F1]. intros e (w & H). exists w. split; [exact H|exact I]. }
  { exact N1. }
  rewrite E2 in Hu. injection Hu as ->. destruct (HWn N2) as [W1 W2].
  rewrite Forall_forall. intros ws Hws. apply In_nth_error in Hws. destruct Hws as [n Hnw].
  assert (Hnl : (n < length W)%nat) by (apply nth_error_Some; intros E0; pose proof (eq_trans (eq_sym Hnw) E0) as X; discriminate X). rewrite Hl1 in Hnl.
  destruct (in_dec Nat.eq_dec n (map ev_id evs2)) as [Hi|Hi].
  + apply in_map_iff in Hi. destruct Hi as (e & <- & Hein). pose proof (eq_trans (eq_sym (W1 e Hein)) Hnw) as X. injection X as <-. rewrite Forall_forall in F2. exact (F2 e Hein).
  + pose proof (eq_trans (eq_sym (W2 n Hnl Hi)) Hnw) as X. injection X as <-. exists 0%R. reflexivity.
Qed.
Lemma written_one double sort MAX km neutrino hadron delta_r cluster_if choose psum draws shuffle (opt : cres_opt RN) c records evs W :
  sort_ok sort -> choose_ok choose -> reorders shuffle -> 0 <= co_minweight opt ->
  Forall2 (fun r ev => try_convert double false [] sort r = inl ev) records evs ->
  run_on double false [] sort (default_cluster neutrino hadron delta_r cluster_if false sort c) shuffle (resampler_of sort MAX km choose opt) (unweighter_of psum draws opt) (map inl records) = Wrote W ->
  Forall (fun ws => exists w, ws = [w]) W.
Proof.
  intros Hsort Hch. apply written_one_gen; [|exact Hsort]. apply lib_resample_total; [exact Hsort|exact RN_order|]. intros l. apply search_valid; assumption.
Qed.

(** The same for a complete run of the program without unweighting, from the input files to the
    output files: [f i] is the observable for the event at position [i] of the input.  Events without
    identified outgoing particles have weight zero in the output and so do not count in the input. *)
Theorem C75_program : forall (D : R -> Prop) (double : parser RN) show xml checks sort MAX km neutrino hadron delta_r cluster_if choose psum draws shuffle
    opt inputs files tags evs fuel,
  number_text RN D double show -> stops_at_tag xml -> reorders shuffle -> sort_ok sort -> choose_ok choose -> km_ok km ->
  co_minweight opt = 0 -> consistent (co_cluster opt) ->
  event_files xml inputs = Ok (files, tags) ->
  Forall (well_formed D double xml checks (extract_scaling tags)) files ->
  reads double show xml checks false [] sort inputs evs -> (length evs < fuel)%nat ->
  exists c outs W,
    as_requested (co_cluster opt) c /\
    cres_main double show xml checks sort MAX km neutrino hadron delta_r cluster_if choose psum draws shuffle fuel opt inputs = Done outs /\
    length W = length evs /\
    (Forall (writable D (extract_scaling tags)) W ->
     exists evs', reads double show xml checks false [] sort (replace_events xml inputs outs) evs' /\ map ev_weights evs' = W /\
       let cluster := default_cluster neutrino hadron delta_r cluster_if false sort c in
       let before := map (fun e => if keeps_particles cluster e then ev_weights e else [0]) evs in
       forall f eps, 0 <= eps ->
       (forall i j ei ej ei' ej' d, nth_error evs i = Some ei -> nth_error evs j = Some ej -> cluster ei = Some ei' -> cluster ej = Some ej' ->
          ev_out ei' <> [] -> ev_out ej' <> [] -> distance sort km (co_ptweight opt) ei' ej' = Some d ->
          d <= match co_max_cell_size opt with Some max => max | None => MAX end -> Rabs (f j - f i) <= eps) ->
       Rabs (observable f (map ev_weights evs') 0 - observable f before 0) <= 2 * eps * INR (nnegative before) * total_abs before 0).
Proof.
  intros D double show xml checks sort MAX km neutrino hadron delta_r cluster_if choose psum draws shuffle opt inputs files tags evs fuel
    HT Hx Hs Hsort Hch Hkm Hmin Hopt He Hwf Hread Hfuel.
  destruct (proj1 (C48_options RN (co_cluster opt)) Hopt) as (c & Ec & Hc). exists c.
  set (cluster := default_cluster neutrino hadron delta_r cluster_if false sort c) in *.
  assert (Hmin0 : 0 <= co_minweight opt) by (rewrite Hmin; apply Rle_refl).
  destruct (C71_total_correctness RN D (fun _ => True) double show xml checks false [] sort cluster shuffle
    (resampler_of sort MAX km choose opt) (unweighter_of psum draws opt) inputs files tags evs fuel) as (outs & W & Hp & Hlo & HlW & (records & Hcv & Hrun) & Hout);
    try assumption; auto using kind_true.
  { intros e. apply (default_cluster_some neutrino hadron delta_r cluster_if false sort c e). }
  { apply lib_resample_total; [exact Hsort|exact RN_order|]. intros evs0. apply search_valid; assumption. }
  { apply minweight_total. exact Hmin0. }
  exists outs, W. split; [exact Hc|]. split; [unfold cres_main; rewrite Ec; exact Hp|]. split; [exact HlW|].
  intros HW. exists (reweighted_all evs W). split; [exact (Hout HW)|].
  pose proof (written_one double sort MAX km neutrino hadron delta_r cluster_if choose psum draws shuffle opt c records evs W Hsort Hch Hs Hmin0 Hcv Hrun) as Hone.
  assert (EW : map ev_weights (reweighted_all evs W) = W).
  { clear -HlW Hone. unfold reweighted_all. revert W HlW Hone. induction evs as [|e evs IH]; intros [|w W] Hl Ho; try discriminate; [reflexivity|].
    inversion Ho as [|? ? (w0 & ->) Ho']; subst. cbn [combine map]. apply f_equal2; [reflexivity|]. apply IH; [|exact Ho']. injection Hl as Hl. exact Hl. }
  split; [exact EW|]. cbn zeta. intros f eps Heps Hf. rewrite EW.
  apply (run_observable double sort MAX km neutrino hadron delta_r cluster_if choose psum draws shuffle opt false c Hsort Hkm Hch Hs Hmin [] records evs W f eps); auto.
Qed.
Print Assumptions C75_program.

(** *** Cases *)
(** Three events at the positions 0, 1 and 10 with weights 5, -1 and 7; cells of size up to 2. *)
Definition l_evs (N : NumOps) (w : Z -> N) : list (Event N) := [mkEvent 0 [w 5%Z] []; mkEvent 1 [w (-1)%Z] []; mkEvent 10 [w 7%Z] []].
Definition l_dist (N : NumOps) (w : Z -> N) (e1 e2 : Event N) : N := w (Z.abs (Z.of_nat (ev_id e1) - Z.of_nat (ev_id e2))).

(** floating-point numbers *)
Definition l_b64 (z : Z) : B64 := binary_normalize 53 1024 z 0 false.
Example C75_untouched_case : 
  option_map fst (resampler_resample false isort MostNegative (fun n dist max => tree_nearest isort first_min n dist max) (l_dist B64 l_b64) (l_b64 2) (l_evs B64 l_b64)) =
    Some [mkEvent 0 [l_b64 2] []; mkEvent 1 [l_b64 2] []; mkEvent 10 [l_b64 7] []] /\
  (forall j ej wj, nth_error (l_evs B64 l_b64) j = Some ej -> ev_weight ej = Some wj -> nltb wj n0 = true ->
     j <> 2%nat /\ nleb (l_dist B64 l_b64 ej (mkEvent 10 [l_b64 7] [])) (l_b64 2) = false).
Proof.
  split; [reflexivity|]. intros [|[|[|j]]] ej wj Hj; try (destruct j; discriminate); injection Hj as <-; intros Hw; injection Hw as <-; intros Hn; try discriminate.
  split; [discriminate|reflexivity].
Qed.

(** real numbers: the events at 0 and 1 are separated from the one at 10 *)
Example C75_separated_case : let evs := l_evs RN IZR in let dist := l_dist RN IZR in let S := fun i => Nat.ltb i 2 in
  shaped false 1 (map ev_weights evs) /\
  limited_search (length evs) (dist_wrapper dist evs) 2 (naive_nearest first_min (length evs) (dist_wrapper dist evs) 2) /\
  (forall i j ei ej, nth_error evs i = Some ei -> nth_error evs j = Some ej -> S i <> S j -> 2 < dist ei ej) /\
  (exists evs' cells, resampler_resample false isort MostNegative (fun n dist max => naive_nearest first_min n dist max) dist 2 evs = Some (evs', cells)) /\
  nnegative (map ev_weights evs) = 1%nat /\ observable (fun i => if S i then 1 else 0) (map ev_weights evs) 0 = 4.
Proof.
  cbn zeta. assert (Hl : limited_search (length (l_evs RN IZR)) (dist_wrapper (l_dist RN IZR) (l_evs RN IZR)) 2 (naive_nearest first_min (length (l_evs RN IZR)) (dist_wrapper (l_dist RN IZR) (l_evs RN IZR)) 2)).
  { apply (C75_naive_limited RN (fun _ => True)); auto using RN_order, first_min_ok.
    intros i j Hi Hj. destruct i as [|[|[|i]]], j as [|[|[|j]]]; cbn in Hi, Hj; try lia; reflexivity. }
  split; [split; [lia|split; [auto|repeat constructor]]|]. split; [exact Hl|]. split; [|split; [|split]].
  - intros i j ei ej Hi Hj. destruct i as [|[|[|i]]], j as [|[|[|j]]]; try (destruct i; discriminate); try (destruct j; discriminate);
      injection Hi as <-; injection Hj as <-; intros HS; try (exfalso; apply HS; reflexivity); apply IZR_lt; reflexivity.
  - destruct (lib_resample_total RN (option read_error) (fun _ => True) false isort MostNegative (fun n dist max => naive_nearest first_min n dist max) (l_dist RN IZR) 2 isort_ok RN_order) with (evs := l_evs RN IZR) as (e1 & E1 & _).
    + intros l q Hq. destruct (@naive_nearest_ok RN (fun _ => True) RN_order first_min (length l) (dist_wrapper (l_dist RN IZR) l) 2 q first_min_ok I (fun _ _ => I) Hq) as (r & E & Hn & Hin & _).
      exists r. split; [exact E|]. split; [exact Hn|]. intros i Hi. apply Hin in Hi. destruct Hi as (A & B & _). auto.
    + repeat constructor; eexists; split; reflexivity || exact I.
    + cbn. constructor; [intros [X|[X|[]]]; discriminate|]. constructor; [intros [X|[]]; discriminate|]. constructor; [intros []|constructor].
    + unfold lib_resample in E1. destruct (resampler_resample false isort MostNegative (fun n dist max => naive_nearest first_min n dist max) (l_dist RN IZR) 2 (l_evs RN IZR)) as [[e c]|]; [|discriminate]. eauto.
  - unfold nnegative. cbn. destruct (Rlt_dec 5 0); [lra|]. destruct (Rlt_dec (-1) 0); [|lra]. destruct (Rlt_dec 7 0); [lra|]. reflexivity.
  - unfold observable, Rsum. cbn. lra.
Qed.

(** A run of the program: that of C74_case, where the first two events form a cell and the third has
    no particles.  The observable is 1 for the first two events and 0 for the third. *)
Example C75_program_case : let f := fun i : nat => if Nat.ltb i 2 then 1 else 0 in
  co_minweight p_opt = 0 /\ (length p_evs < 10)%nat /\
  (forall i j ei ej ei' ej' d, nth_error p_evs i = Some ei -> nth_error p_evs j = Some ej -> p_cluster ei = Some ei' -> p_cluster ej = Some ej' ->
     ev_out ei' <> [] -> ev_out ej' <> [] -> distance isort km_brute (co_ptweight p_opt) ei' ej' = Some d -> d <= 100 -> Rabs (f j - f i) <= 0) /\
  nnegative (map (fun e => if keeps_particles p_cluster e then ev_weights e else [0]) p_evs) = 1%nat /\
  observable f (map (fun e => if keeps_particles p_cluster e then ev_weights e else [0]) p_evs) 0 = 4.
Proof.
  cbn zeta. split; [reflexivity|]. split; [cbn; lia|].
  assert (Hk : map (fun e => if keeps_particles p_cluster e then ev_weights e else [0]) p_evs = [[5]; [-1]; [0]]) by reflexivity.
  rewrite Hk. split; [|split].
  - intros i j ei ej ei' ej' d Hi Hj Ci Cj Oi Oj _ _.
    assert (Q : forall n e e', nth_error p_evs n = Some e -> p_cluster e = Some e' -> ev_out e' <> [] -> Nat.ltb n 2 = true).
    { intros [|[|[|n]]] e e' Hn Hc Ho; [reflexivity|reflexivity| |destruct n; discriminate]. injection Hn as <-. injection Hc as <-. exfalso. apply Ho. reflexivity. }
    rewrite (Q i ei ei' Hi Ci Oi), (Q j ej ej' Hj Cj Oj). unfold Rminus. rewrite Rplus_opp_r, Rabs_R0. apply Rle_refl.
  - unfold nnegative. cbn. destruct (Rlt_dec 5 0); [lra|]. destruct (Rlt_dec (-1) 0); [|lra]. destruct (Rlt_dec 0 0); [lra|]. reflexivity.
  - unfold observable, Rsum. cbn. lra.
Qed.
