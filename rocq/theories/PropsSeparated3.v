(** C93: complete programs with several threads, and with the program's own clustering. *)
From Coq Require Import NArith ZArith Reals Lra Lia SpecFloat Sorted.
From Flocq Require Import Core.Core IEEE754.BinarySingleNaN.
From Verif Require Import Base BaseProofs Num ModelEvent ModelText ModelIO ModelMain SpecMain ModelCres SpecCres ModelDistance ModelCell ModelSeeds ModelNaive ModelVPTree ModelResampler
  ModelNumber ModelUnweight ModelCluster ModelOpt ModelProgram ModelConc ModelThreads SpecWeights SpecEvent SpecDistance SpecSearch SpecTree SpecTreeNear SpecMoments SpecAccuracy SpecSeparated
  B64Proofs B64Errors B64Finite SumProofs EventProofs NaiveProofs PropsTreeNear B64Distance DistanceProofs DistAccuracy DistAccuracy5 SeparatedProofs SeparatedProofs2 SeparatedThreads
  PropsHepMC PropsNumber PropsAccuracy PropsSeparated PropsSeparated2.
From Coq Require Import List.
Import ListNotations.
Local Open Scope R_scope.

Lemma used_ids sort (km : assignment B64) B T tau mw n (used : list (Event B64)) (pss : nat -> list (Z * FourVector B64)) (kept : nat -> Prop) x max algo algo' :
  sort_ok sort -> / 2 ^ 400 <= B <= 2 ^ 500 -> 1 <= T <= 2 ^ 9 -> within T tau -> b64_fin max \/ max = b64_inf ->
  tree_or_naive sort algo -> tree_or_naive sort algo' ->
  NoDup (map ev_id used) -> (N.of_nat (length used) <= usize_max)%N ->
  (forall u, In u used -> kept (ev_id u) /\ ev_out u = ev_out (build sort (made (N := B64) mw (pss (ev_id u)) [])) /\ few_upto km B n (pss (ev_id u))) ->
  (Z.of_nat (n + n) <= 2 ^ 40)%Z ->
  (forall i j, kept i -> kept j -> exact_distance tau (pss i) (pss j) (x i j)) ->
  separated_on kept x max (enough n T B) ->
  let dist a b := match distance sort km tau a b with Some d => d | None => n0 end in
  forall q, (q < length used)%nat -> same_ids B64 (algo (length used) (dist_wrapper dist used) max q) (algo' (length used) (dist_wrapper dist used) max q).
Proof.
  intros Hs HB HT Htau Hmax Ha Ha' Hnd Lu PU Hn Hx [Hsep Hsepm] dist q Hq.
  set (es := map (fun u : Event B64 => (pss (ev_id u), @nil B64)) used).
  assert (Ln : length es = length used) by (unfold es; apply map_length).
  set (idx := fun i => match nth_error used i with Some u => ev_id u | None => 0%nat end).
  assert (IX : forall i, (i < length used)%nat -> exists u, nth_error used i = Some u /\ idx i = ev_id u /\ In u used).
  { intros i Hi. unfold idx. destruct (nth_error used i) as [u|] eqn:E; [|apply nth_error_None in E; lia]. exists u. split; [reflexivity|]. split; [reflexivity|]. eapply nth_error_In; exact E. }
  assert (KI : forall i, (i < length used)%nat -> kept (idx i)) by (intros i Hi; destruct (IX i Hi) as (u & _ & -> & Hin); apply PU; exact Hin).
  assert (NI : forall i j, (i < length used)%nat -> (j < length used)%nat -> i <> j -> idx i <> idx j).
  { intros i j Hi Hj Hne E. apply Hne. assert (M : forall k, (k < length used)%nat -> nth_error (map ev_id used) k = Some (idx k)).
    { intros k Hk. destruct (IX k Hk) as (u & Eu & -> & _). apply map_nth_error. exact Eu. }
    apply (proj1 (NoDup_nth_error (map ev_id used)) Hnd i j); [rewrite map_length; exact Hi|]. rewrite (M i Hi), (M j Hj), E. reflexivity. }
  assert (Nth : forall i e, nth_error es i = Some e -> exists u, nth_error used i = Some u /\ idx i = ev_id u /\ In u used /\ e = (pss (ev_id u), [])).
  { intros i e E. unfold es in E. rewrite nth_error_map in E. destruct (nth_error used i) as [u|] eqn:Eu; [|discriminate]. injection E as <-. exists u.
    split; [reflexivity|]. split; [unfold idx; rewrite Eu; reflexivity|]. split; [eapply nth_error_In; exact Eu|reflexivity]. }
  assert (S : forall c c', choose_ok c -> choose_ok c' -> option_map (map fst) (tree_nearest (F := B64) sort c (length used) (dist_wrapper dist used) max q) =
    option_map (map fst) (naive_nearest (N := B64) c' (length used) (dist_wrapper dist used) max q)).
  { intros c c' Hc Hc'. rewrite <- Ln in *.
    destruct (C93_searches sort c c' km B T tau mw n es (dist_wrapper dist used) (fun i j => x (idx i) (idx j)) max q Hs Hc Hc' HB HT Htau Hmax) as (lt & ln & -> & -> & E & _); auto.
    - apply Forall_forall. intros e Hin. apply In_nth_error in Hin as (i & Hi). destruct (Nth i e Hi) as (u & _ & _ & Hu & ->). apply PU. exact Hu.
    - intros i j e1 e2 E1 E2. destruct (Nth i e1 E1) as (u1 & V1 & I1 & U1 & ->), (Nth j e2 E2) as (u2 & V2 & I2 & U2 & ->). cbn [fst snd]. rewrite I1, I2. split; [|apply Hx; apply PU; assumption].
      destruct (PU u1 U1) as (_ & O1 & P1), (PU u2 U2) as (_ & O2 & P2).
      destruct (C92_distance sort km B T tau mw n n (pss (ev_id u1)) (pss (ev_id u2)) [] [] Hs HB HT Htau P1 P2 Hn) as (d & r & E & _).
      unfold dist_wrapper. rewrite V1, V2. unfold dist. unfold distance in *. rewrite O1, O2, E. reflexivity.
    - split.
      + intros q' i j Hq' Hi Hj H1 H2 H3. apply Hsep; auto.
      + intros q' i Hq' Hi H1 Hm. apply Hsepm; auto.
    - cbn [option_map]. rewrite E. reflexivity. }
  unfold same_ids. destruct Ha as (c & Hc & Ha), Ha' as (c' & Hc' & Ha').
  destruct Ha as [->| ->], Ha' as [->| ->].
  - rewrite (S c c Hc Hc), (S c' c Hc' Hc). reflexivity.
  - apply S; assumption.
  - symmetry. apply S; assumption.
  - rewrite <- (S c c Hc Hc), <- (S c c' Hc Hc'). reflexivity.
Qed.

(** As C93_program, for the program with any number of threads and any schedule: the same schedule leads to the same ending with
    either search. *)
Theorem C93_threads : forall double show xml checks mw names sort sort' cluster shuffle unweighter fuel inputs (evs : list (Event B64)) strategy nthreads sched
    (km : assignment B64) B T tau n max algo algo' (pss : nat -> list (Z * FourVector B64)) x,
  reorders shuffle -> sort_ok sort' -> / 2 ^ 400 <= B <= 2 ^ 500 -> 1 <= T <= 2 ^ 9 -> within T tau -> b64_fin max \/ max = b64_inf ->
  tree_or_naive sort' algo -> tree_or_naive sort' algo' ->
  reads double show xml checks mw names sort inputs evs -> (N.of_nat (length evs) <= usize_max)%N ->
  (forall i e e', nth_error evs i = Some e -> cluster e = Some e' -> ev_out e' <> [] ->
     ev_out e' = ev_out (build sort' (made (N := B64) mw (pss i) [])) /\ few_upto km B n (pss i)) ->
  (Z.of_nat (n + n) <= 2 ^ 40)%Z ->
  let kept i := exists e e', nth_error evs i = Some e /\ cluster e = Some e' /\ ev_out e' <> [] in
  (forall i j, kept i -> kept j -> exact_distance tau (pss i) (pss j) (x i j)) ->
  separated_on kept x max (enough n T B) ->
  let dist a b := match distance sort' km tau a b with Some d => d | None => n0 end in
  let program algo := cres_program double show xml checks mw names sort cluster shuffle (threads_resample nthreads sched mw sort' strategy algo dist max) unweighter fuel inputs in
  program algo = program algo'.
Proof.
  intros double show xml checks mw names sort sort' cluster shuffle unweighter fuel inputs evs strategy nthreads sched km B T tau n max algo algo' pss x
    Hs Hs' HB HT Htau Hmax Ha Ha' Hread Hl Hps Hn kept Hx Hsep dist program.
  apply program_swap_ids with (evs := evs); [exact Hs|exact Hread|]. intros used [Hnd Hu].
  apply threads_ids. apply (used_ids sort' km B T tau mw n used pss kept x max algo algo'); auto.
  - assert (length used <= length evs)%nat; [|lia]. rewrite <- (map_length ev_id used), <- (seq_length (length evs) 0). apply NoDup_incl_length; [exact Hnd|].
    intros i Hi. apply in_map_iff in Hi as (u & <- & Hin). destruct (Hu u Hin) as [_ (e0 & _ & E0 & _)]. apply in_seq. split; [lia|]. apply nth_error_Some. congruence.
  - intros u Hin. destruct (Hu u Hin) as [Hne (e0 & e1 & E0 & E1 & Eo & Ew)]. rewrite Eo in *. split; [exists e0, e1; auto|]. exact (Hps _ _ _ E0 E1 Hne).
Qed.
Print Assumptions C93_threads.

(** Options that agree except for the search *)
Definition same_but_search {N : NumOps} (opt opt' : cres_opt N) : Prop :=
  co_cluster opt = co_cluster opt' /\ co_minweight opt = co_minweight opt' /\ co_ptweight opt = co_ptweight opt' /\ co_strategy opt = co_strategy opt' /\
  co_max_cell_size opt = co_max_cell_size opt'.

(** The program with its own clustering, resampler and unweighter, one thread or several, without ([mw = false]) and with the feature
    "multiweight": the option --search does not matter. *)
Theorem C93_main : forall mw double show xml checks sort MAX (km : assignment B64) neutrino hadron delta_r cluster_if choose choose' psum draws shuffle nthreads sched
    fuel (opt opt' : cres_opt B64) clustering inputs (evs : list (Event B64)) B T n (pss : nat -> list (Z * FourVector B64)) x,
  reorders shuffle -> sort_ok sort -> choose_ok choose -> choose_ok choose' -> same_but_search opt opt' ->
  cres_clustering (co_cluster opt) = Good (Some clustering) ->
  / 2 ^ 400 <= B <= 2 ^ 500 -> 1 <= T <= 2 ^ 9 -> within T (co_ptweight opt) ->
  let max := match co_max_cell_size opt with Some max => max | None => MAX end in
  b64_fin max \/ max = b64_inf ->
  reads double show xml checks mw [] sort inputs evs -> (N.of_nat (length evs) <= usize_max)%N ->
  let cluster := default_cluster neutrino hadron delta_r cluster_if mw sort clustering in
  (forall i e e', nth_error evs i = Some e -> cluster e = Some e' -> ev_out e' <> [] ->
     ev_out e' = ev_out (build sort (made (N := B64) mw (pss i) [])) /\ few_upto km B n (pss i) /\ Forall not_nan (ev_weights e')) ->
  (Z.of_nat (n + n) <= 2 ^ 40)%Z ->
  let kept i := exists e e', nth_error evs i = Some e /\ cluster e = Some e' /\ ev_out e' <> [] in
  (forall i j, kept i -> kept j -> exact_distance (co_ptweight opt) (pss i) (pss j) (x i j)) ->
  separated_on kept x max (enough n T B) ->
  (if mw then
     cres_main_default double show xml checks sort MAX km neutrino hadron delta_r cluster_if choose psum draws shuffle fuel opt inputs =
     cres_main_default double show xml checks sort MAX km neutrino hadron delta_r cluster_if choose' psum draws shuffle fuel opt' inputs /\
     cres_main_default_threads double show xml checks sort MAX km neutrino hadron delta_r cluster_if choose psum draws shuffle nthreads sched fuel opt inputs =
     cres_main_default_threads double show xml checks sort MAX km neutrino hadron delta_r cluster_if choose' psum draws shuffle nthreads sched fuel opt' inputs
   else
     cres_main double show xml checks sort MAX km neutrino hadron delta_r cluster_if choose psum draws shuffle fuel opt inputs =
     cres_main double show xml checks sort MAX km neutrino hadron delta_r cluster_if choose' psum draws shuffle fuel opt' inputs /\
     cres_main_threads double show xml checks sort MAX km neutrino hadron delta_r cluster_if choose psum draws shuffle nthreads sched fuel opt inputs =
     cres_main_threads double show xml checks sort MAX km neutrino hadron delta_r cluster_if choose' psum draws shuffle nthreads sched fuel opt' inputs).
Proof.
  intros mw double show xml checks sort MAX km neutrino hadron delta_r cluster_if choose choose' psum draws shuffle nthreads sched
    fuel [oc om op os ost ox] [oc' om' op' os' ost' ox'] clustering inputs evs B T n pss x Hs Hso Hc Hc' (E1 & E2 & E3 & E4 & E5).
  cbn [co_cluster co_minweight co_ptweight co_search co_strategy co_max_cell_size] in E1, E2, E3, E4, E5. subst oc' om' op' ost' ox'.
  intros Hcl HB HT Htau max Hmax Hread Hl cluster Hps Hn kept Hx Hsep. cbn [co_cluster] in Hcl.
  assert (A : forall c s, choose_ok c -> tree_or_naive sort (search_of (N := B64) sort c (mkCresOpt oc om op s ost ox))).
  { intros c s Hcc. exists c. split; [exact Hcc|]. destruct s; [left|right]; reflexivity. }
  assert (P1 := C93_program double show xml checks mw [] sort sort cluster shuffle (lib_unweight psum om draws) fuel inputs evs ost km B T op n max _ _ pss x
    Hs Hso HB HT Htau Hmax (A choose os Hc) (A choose' os' Hc') Hread Hl Hps Hn Hx Hsep).
  assert (P2 := C93_threads double show xml checks mw [] sort sort cluster shuffle (lib_unweight psum om draws) fuel inputs evs ost nthreads sched km B T op n max _ _ pss x
    Hs Hso HB HT Htau Hmax (A choose os Hc) (A choose' os' Hc') Hread Hl (fun i e e' H1 H2 H3 => conj (proj1 (Hps i e e' H1 H2 H3)) (proj1 (proj2 (Hps i e e' H1 H2 H3)))) Hn Hx Hsep).
  destruct mw.
  - unfold cres_main_default, cres_main_default_threads. cbn [co_cluster]. rewrite Hcl. split; [exact P1|exact P2].
  - unfold cres_main, cres_main_threads. cbn [co_cluster]. rewrite Hcl. split; [exact P1|exact P2].
Qed.
Print Assumptions C93_main.

(** A case: the file of C93_program_case, the clustering of the program with jets, two threads that take turns. *)
Definition s_opt (search : Search) : cres_opt B64 :=
  mkCresOpt (mkOpt (mkJetOpt AntiKt (n1 : B64) (b64_of_Z 30)) (mkLeptonOpt None None None) (mkPhotonOpt None None None) false) (n0 : B64) (n0 : B64) search MostNegative (Some b64_inf).
Definition s_sched (k : nat) : nat * nat := (Nat.modulo k 2, 0%nat).
Definition s_clustering : DefaultClustering B64 := Eval vm_compute in
  match cres_clustering (co_cluster (s_opt Tree)) with Good (Some c) => c | _ => mkClustering (mkJetDef AntiKt (n0 : B64) n0) None None false end.
Definition s_cluster : Event B64 -> option (Event B64) := default_cluster (fun _ => false) (fun _ => false) (fun _ _ => n0) (fun _ _ _ _ => []) false isort s_clustering.
Definition s_main (search : Search) : ending :=
  cres_main b64_double b64_show n_noxml true isort b64_inf (fun _ _ => n0) (fun _ => false) (fun _ => false) (fun _ _ => n0) (fun _ _ _ _ => []) first_min
    (fun l => nsum (N := B64) l) (fun _ => n0) (fun l => rev l) 10 (s_opt search) [s_file].
Definition s_main_threads (search : Search) : ending :=
  cres_main_threads b64_double b64_show n_noxml true isort b64_inf (fun _ _ => n0) (fun _ => false) (fun _ => false) (fun _ _ => n0) (fun _ _ _ _ => []) first_min
    (fun l => nsum (N := B64) l) (fun _ => n0) (fun l => rev l) 2 s_sched 10 (s_opt search) [s_file].
Lemma s_main_naive : s_main Naive = Done s_outs.
Proof. vmr. Qed.
Lemma s_threads_naive : s_main_threads Naive = Done s_outs.
Proof. vmr. Qed.
Lemma s_cl : cres_clustering (co_cluster (s_opt Tree)) = Good (Some s_clustering).
Proof. vmr. Qed.

Lemma s_clustered i e e' : nth_error s_evs i = Some e -> s_cluster e = Some e' ->
  (i < 3)%nat /\ ev_out e' = ev_out (build isort (made (N := B64) false (line_ps i) [])) /\ Forall not_nan (ev_weights e').
Proof.
  assert (C : map s_cluster s_evs = map Some s_evs) by vmr.
  intros E Ec. pose proof (map_nth_error s_cluster _ _ E) as M. rewrite C in M. rewrite (map_nth_error Some _ _ E) in M. injection M as M. rewrite Ec in M. injection M as <-.
  exact (s_events i e E).
Qed.
Example C93_main_case : s_main Tree = Done s_outs /\ s_main_threads Tree = Done s_outs.
Proof.
  assert (Bb : / 2 ^ 400 <= 16 <= 2 ^ 500).
  { split; [apply Rle_trans with 1; [rewrite <- Rinv_1; apply Rinv_le_contravar; [lra|apply pow_R1_Rle; lra]|lra]|].
    apply Rle_trans with (2 ^ 4); [lra|apply Rle_pow; [lra|lia]]. }
  assert (Tb : 1 <= 1 <= 2 ^ 9) by (split; [lra|apply pow_R1_Rle; lra]).
  assert (W0 : within 1 (n0 : B64)) by (split; [split; reflexivity|change (b64_val (n0 : B64)) with 0; rewrite Rabs_R0; lra]).
  rewrite <- s_main_naive at 1. rewrite <- s_threads_naive.
  assert (K : forall i, (exists e e' : Event B64, nth_error s_evs i = Some e /\ s_cluster e = Some e' /\ ev_out e' <> []) -> (i < 3)%nat).
  { intros i (e & e' & E & Ec & _). exact (proj1 (s_clustered i e e' E Ec)). }
  apply (C93_main false b64_double b64_show n_noxml true isort b64_inf (fun _ _ => n0) (fun _ => false) (fun _ => false) (fun _ _ => n0) (fun _ _ _ _ => []) first_min first_min
    (fun l => nsum (N := B64) l) (fun _ => n0) (fun l => rev l) 2 s_sched 10 (s_opt Tree) (s_opt Naive) s_clustering [s_file] s_evs 16 1 1 line_ps line_x).
  - intros l. apply Permutation_rev.
  - exact isort_ok.
  - exact first_min_ok.
  - exact first_min_ok.
  - repeat split.
  - exact s_cl.
  - exact Bb.
  - exact Tb.
  - exact W0.
  - right. reflexivity.
  - exact s_reads.
  - vm_compute. discriminate.
  - intros i e e' E Ee _. destruct (s_clustered i e e' E Ee) as (Hi & Ho & Hw). split; [exact Ho|]. split; [apply line_few; exact Hi|exact Hw].
  - lia.
  - intros i j Hi Hj. apply line_exact; apply K; assumption.
  - destruct line_separated as [S1 S2]. split.
    + intros q i j Hq Hi Hj. apply S1; apply K; assumption.
    + intros q i Hq Hi. apply S2; apply K; assumption.
Qed.
