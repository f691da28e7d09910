(** C93: rounding errors do not matter if the distances are different enough. *)
From Coq Require Import NArith ZArith Reals Lra Lia SpecFloat Sorted.
From Flocq Require Import Core.Core IEEE754.BinarySingleNaN.
From Verif Require Import Base BaseProofs Num ModelEvent ModelDistance ModelCell ModelSeeds ModelNaive ModelVPTree ModelResampler SpecWeights SpecEvent SpecDistance SpecSearch SpecTree SpecTreeNear SpecMoments SpecAccuracy SpecSeparated
  B64Proofs B64Errors B64Finite SumProofs EventProofs NaiveProofs PropsTreeNear B64Distance DistanceProofs DistAccuracy DistAccuracy5 SeparatedProofs PropsAccuracy.
From Coq Require Import List.
Import ListNotations.
Local Open Scope R_scope.

(** How much the exact distances have to differ: events with at most [n] particles each *)
Definition enough (n : nat) (T B : R) : R := 8 * dist_error (n + n) T B + / 2 ^ 53 * dist_bound (n + n) T B.

(** If the exact distances from any event differ by more than this, then both searches, which only know the rounded distances,
    deliver the events in the order of the exact distances. *)
Theorem C93_searches : forall sort choose choose' (km : assignment B64) B T tau mw n (evs : list (list (Z * FourVector B64) * list B64)) dist x max q,
  sort_ok sort -> choose_ok choose -> choose_ok choose' -> / 2 ^ 400 <= B <= 2 ^ 500 -> 1 <= T <= 2 ^ 9 -> within T tau ->
  b64_fin max \/ max = b64_inf ->
  Forall (fun e => few_upto km B n (fst e)) evs -> (Z.of_nat (n + n) <= 2 ^ 40)%Z ->
  (forall i j e1 e2, nth_error evs i = Some e1 -> nth_error evs j = Some e2 ->
     distance sort km tau (build sort (made mw (fst e1) (snd e1))) (build sort (made mw (fst e2) (snd e2))) = Some (dist i j) /\
     exact_distance tau (fst e1) (fst e2) (x i j)) ->
  separated (length evs) x max (enough n T B) ->
  (N.of_nat (length evs) <= usize_max)%N -> (q < length evs)%nat ->
  exists lt ln, tree_nearest (F := B64) sort choose (length evs) dist max q = Some lt /\
    naive_nearest (N := B64) choose' (length evs) dist max q = Some ln /\ map fst lt = map fst ln /\
    exact_order (length evs) q (x q) max (map fst lt).
Proof.
  intros sort choose choose' km B T tau mw n evs dist x max q Hs Hc Hc' [B1 B2] [T1 T2] [Ft Ht] Hmax He Hn Hd Hsep Hl Hq.
  destruct (@few_near_metric sort Hs km B T B1 B2 T1 T2 tau Ft Ht mw n evs dist He Hn (fun i j e1 e2 H1 H2 => proj1 (Hd i j e1 e2 H1 H2))) as [NM NE].
  assert (G : forall i, (i < length evs)%nat -> exists e, nth_error evs i = Some e).
  { intros i Hi. destruct (nth_error evs i) as [e|] eqn:E; [eauto|]. apply nth_error_None in E. lia. }
  assert (X : forall i j, (i < length evs)%nat -> (j < length evs)%nat -> exists e1 e2, nth_error evs i = Some e1 /\ nth_error evs j = Some e2 /\ x i j = exact tau (fst e1) (fst e2)).
  { intros i j Hi Hj. destruct (G i Hi) as (e1 & E1), (G j Hj) as (e2 & E2). exists e1, e2. split; [exact E1|]. split; [exact E2|].
    eapply C92_exact_unique; [apply (Hd i j e1 e2 E1 E2)|apply exact_ok]. }
  assert (X1 : forall i j, (i < length evs)%nat -> (j < length evs)%nat -> Rabs (b64_val (dist i j) - x i j) <= dist_error (n + n) T B).
  { intros i j Hi Hj. destruct (X i j Hi Hj) as (e1 & e2 & E1 & E2 & ->). apply NE; assumption. }
  assert (X2 : forall i j, (i < length evs)%nat -> (j < length evs)%nat -> x i j = x j i).
  { intros i j Hi Hj. destruct (X i j Hi Hj) as (e1 & e2 & E1 & E2 & ->). destruct (X j i Hj Hi) as (e3 & e4 & E3 & E4 & ->).
    rewrite E2 in E3. injection E3 as <-. rewrite E1 in E4. injection E4 as <-. symmetry. apply (@exact_metric sort Hs tau (fst e1) (fst e2) (fst e2)). }
  assert (Hen : 8 * dist_error (n + n) T B + bpow radix2 (-53) * dist_bound (n + n) T B <= enough n T B).
  { unfold enough. replace (bpow radix2 (-53)) with (/ 2 ^ 53); [lra|]. rewrite <- bpow_pow, <- bpow_opp. reflexivity. }
  destruct (@tree_exact (length evs) _ _ (enough n T B) dist x max NM X1 Hen Hsep Hmax sort choose q Hs Hc Hl Hq) as (lt & E1 & O1).
  destruct (@naive_exact (length evs) _ _ (enough n T B) dist x max NM X1 X2 Hen Hsep Hmax choose' q Hc' Hq) as (ln & E2 & O2).
  exists lt, ln. split; [exact E1|]. split; [exact E2|]. split; [|exact O1]. exact (exact_order_unique O1 O2).
Qed.
Print Assumptions C93_searches.

(** Then a run gives the same weights and the same cells with both searches, and with every other search that delivers the events in
    the order of the exact distances. *)
Theorem C93_run : forall sort choose choose' (km : assignment B64) B T tau mw n strategy (evs : list (Event B64)) pss (dist : Event B64 -> Event B64 -> B64) x max (algo : search_algo B64),
  sort_ok sort -> choose_ok choose -> choose_ok choose' -> / 2 ^ 400 <= B <= 2 ^ 500 -> 1 <= T <= 2 ^ 9 -> within T tau ->
  b64_fin max \/ max = b64_inf ->
  Forall2 (fun e ps => ev_out e = ev_out (build sort (made (N := B64) mw ps [])) /\ few_upto km B n ps /\ Forall not_nan (ev_weights e)) evs pss ->
  (Z.of_nat (n + n) <= 2 ^ 40)%Z ->
  (forall e1 e2, In e1 evs -> In e2 evs -> distance sort km tau e1 e2 = Some (dist e1 e2)) ->
  (forall i j ps1 ps2, nth_error pss i = Some ps1 -> nth_error pss j = Some ps2 -> exact_distance tau ps1 ps2 (x i j)) ->
  separated (length evs) x max (enough n T B) -> (N.of_nat (length evs) <= usize_max)%N ->
  algo = naive_nearest choose' \/
  (forall q, (q < length evs)%nat -> exists l, algo (length evs) (dist_wrapper dist evs) max q = Some l /\ exact_order (length evs) q (x q) max (map fst l)) ->
  match resampler_resample mw sort strategy (tree_nearest sort choose) dist max evs, resampler_resample mw sort strategy algo dist max evs with
  | Some (e, cs), Some (e', cs') => e = e' /\ map members cs = map members cs' /\ map weight_sum cs = map weight_sum cs'
  | None, None => True
  | _, _ => False
  end.
Proof.
  intros sort choose choose' km B T tau mw n strategy evs pss dist x max algo Hs Hc Hc' HB HT Htau Hmax HF Hn Hd Hx Hsep Hl Ha.
  set (es := map (fun ps => (ps, @nil B64)) pss).
  assert (Ln : length es = length evs) by (unfold es; rewrite map_length; symmetry; clear -HF; induction HF; cbn; congruence).
  assert (Nth : forall i e, nth_error es i = Some e -> nth_error pss i = Some (fst e) /\ snd e = [] /\
    exists v, nth_error evs i = Some v /\ ev_out v = ev_out (build sort (made (N := B64) mw (fst e) (snd e))) /\ few_upto km B n (fst e)).
  { intros i e E. unfold es in E. rewrite nth_error_map in E. destruct (nth_error pss i) as [ps|] eqn:Ep; [|discriminate]. injection E as <-. cbn [fst snd].
    split; [reflexivity|]. split; [reflexivity|]. clear -HF Ep. revert i Ep. induction HF as [|v p evs pss (H1 & H2 & _) HF IH]; intros [|i] Ep; cbn [nth_error] in *; try discriminate.
    - injection Ep as ->. eauto.
    - apply IH. exact Ep. }
  assert (S : forall q, (q < length evs)%nat -> exists lt ln, tree_nearest (F := B64) sort choose (length evs) (dist_wrapper dist evs) max q = Some lt /\
    naive_nearest (N := B64) choose' (length evs) (dist_wrapper dist evs) max q = Some ln /\ map fst lt = map fst ln /\ exact_order (length evs) q (x q) max (map fst lt)).
  { rewrite <- Ln. intros q Hq. apply (C93_searches sort choose choose' km B T tau mw n es (dist_wrapper dist evs) x max q Hs Hc Hc' HB HT Htau Hmax); auto.
    - apply Forall_forall. intros e Hin. apply In_nth_error in Hin as (i & Hi). destruct (Nth i e Hi) as (_ & _ & v & _ & _ & H). exact H.
    - intros i j e1 e2 E1 E2. destruct (Nth i e1 E1) as (P1 & _ & v1 & V1 & O1 & _), (Nth j e2 E2) as (P2 & _ & v2 & V2 & O2 & _). split; [|apply Hx; assumption].
      unfold dist_wrapper. rewrite V1, V2. rewrite <- (Hd v1 v2 (nth_error_In _ _ V1) (nth_error_In _ _ V2)). unfold distance. rewrite O1, O2. reflexivity.
    - rewrite Ln. exact Hsep.
    - rewrite Ln. exact Hl. }
  pose proof (@run_ids B64 not_nan sort strategy mw (tree_nearest sort choose) algo dist max evs Hs B64_order) as R.
  match type of R with ?A -> ?B -> ?C => assert (C) as R' end.
  { apply R.
    - intros i w Hw. unfold weight_at in Hw. rewrite nth_error_map in Hw. destruct (nth_error evs i) as [e|] eqn:Ee; [|discriminate]. cbn [option_map] in Hw.
      assert (W : Forall not_nan (ev_weights e)). { clear -HF Ee. revert i Ee. induction HF as [|v p evs pss (_ & _ & H) HF IH]; intros [|i] Ee; cbn [nth_error] in *; try discriminate; [injection Ee as ->; exact H|eauto]. }
      unfold central in Hw. rewrite Forall_forall in W. apply W. destruct (ev_weights e) as [|w0 ws]; [discriminate|]. injection Hw as ->. left. reflexivity.
    - intros q Hq. unfold same_ids. destruct (S q Hq) as (lt & ln & -> & E2 & E3 & O). cbn [option_map].
      destruct Ha as [->|Ha].
      + rewrite E2. cbn [option_map]. rewrite E3. reflexivity.
      + destruct (Ha q Hq) as (l & -> & O'). cbn [option_map]. f_equal. exact (exact_order_unique O O'). }
  destruct (resampler_resample mw sort strategy (tree_nearest sort choose) dist max evs) as [[e cs]|], (resampler_resample mw sort strategy algo dist max evs) as [[e' cs']|]; auto.
  destruct R' as [-> F]. split; [reflexivity|]. clear -F. induction F as [|c c' cs cs' [H1 H2] F [IH1 IH2]]; [auto|]. cbn [map]. rewrite H1, H2, IH1, IH2. auto.
Qed.
Print Assumptions C93_run.

(** A case: three events with one particle each, moving along one axis with momenta 1, 2 and 4, the first one of negative weight. *)
Definition line (i : nat) : Z := nth i [1; 2; 4]%Z 0%Z.
Definition line_ps (i : nat) : list (Z * FourVector B64) := [(11%Z, zfv 5 (line i) 0 0)].
Definition line_ev (i : nat) (w : Z) : Event B64 := build isort (made (N := B64) false (line_ps i) [b64_of_Z w]).
Definition line_evs : list (Event B64) := [line_ev 0 (-1); line_ev 1 2; line_ev 2 3].
Definition line_pss : list (list (Z * FourVector B64)) := [line_ps 0; line_ps 1; line_ps 2].
Definition line_dist (e1 e2 : Event B64) : B64 := match distance isort (fun _ _ => n0) n0 e1 e2 with Some d => d | None => n0 end.
Definition line_x (i j : nat) : R := Rabs (IZR (line i) - IZR (line j)).

Lemma line_few km i : (i < 3)%nat -> few_upto km 16 1 (line_ps i).
Proof.
  intros Hi. split; [|split; [|cbn; lia]].
  - apply Forall_cons; [|apply Forall_nil]. cbn [snd]. destruct i as [|[|[|]]]; [| | |lia]; apply zfv_upto; cbn; lia.
  - right. intros id. eapply Nat.le_trans; [apply filter_le|]. cbn. lia.
Qed.
Lemma pair_one tau p q : min_pairing tau [p] [q] (mom_dist tau p q).
Proof.
  unfold min_pairing, filled. cbn [length Nat.max Nat.sub repeat app]. split.
  - exists [p]. split; [reflexivity|]. unfold pairing_cost. cbn [map combine fst snd]. rewrite Rsum_cons, Rsum_nil. ring.
  - intros P' HP. apply Permutation_length_1_inv in HP. subst P'. unfold pairing_cost. cbn [map combine fst snd]. rewrite Rsum_cons, Rsum_nil. lra.
Qed.
Lemma line_exact i j : (i < 3)%nat -> (j < 3)%nat -> exact_distance n0 (line_ps i) (line_ps j) (line_x i j).
Proof.
  intros Hi Hj. exists [11%Z], (fun id => if Z.eqb id 11 then line_x i j else 0).
  split; [repeat constructor; intros []|]. split; [intros id; cbn; tauto|]. split.
  - intros id. unfold with_id, real_particles, line_ps. cbn [map filter fst snd].
    destruct (Z.eqb_spec 11 id) as [<-|Hne].
    + cbn [map snd Z.eqb Pos.eqb].
      assert (E : forall a b : FourVector RN, mom_dist (b64_val n0) a b = line_x i j -> min_pairing (b64_val n0) [a] [b] (line_x i j)) by (intros a b <-; apply pair_one).
      apply E. unfold mom_dist, line_x, real_mom, zfv. cbn [fv_from update_pt fv_x fv_y fv_z fv_e].
      assert (V : forall k, (k < 3)%nat -> b64_val (b64_of_Z (line k)) = IZR (line k)) by (intros k Hk; apply b64_of_Z_val; destruct k as [|[|[|]]]; cbn; lia).
      rewrite (V i Hi), (V j Hj). change (b64_val (b64_of_Z 0)) with 0. change (b64_val n0) with 0.
      rewrite <- sqrt_Rsqr_abs. f_equal. unfold Rsqr. ring.
    + replace (Z.eqb id 11) with false by (symmetry; apply Z.eqb_neq; congruence). cbn [map].
      unfold min_pairing, filled. cbn [length Nat.max Nat.sub repeat app]. split.
      * exists []. split; [reflexivity|]. reflexivity.
      * intros P' HP. apply Permutation_nil in HP. subst P'. apply Rle_refl.
  - cbn [map]. rewrite Rsum_cons, Rsum_nil. cbn. ring.
Qed.
Lemma line_enough : enough 1 1 16 < 1.
Proof.
  unfold enough, dist_error, dist_bound. replace (INR (1 + 1)) with 2 by (cbn; lra).
  pose proof DistAccuracy.eps_small as H1. pose proof b64_eps_pos as H2. unfold b64_eps in H1, H2. lra.
Qed.
Lemma line_separated : separated 3 line_x b64_inf (enough 1 1 16).
Proof.
  pose proof line_enough as He. split; [|intros q i _ _ _ [_ F]; discriminate F].
  intros q i j Hq Hi Hj H1 H2 H3. apply Rlt_le_trans with 1; [exact He|]. unfold line_x.
  rewrite <- !minus_IZR, <- !abs_IZR, <- minus_IZR, <- abs_IZR. apply IZR_le.
  destruct q as [|[|[|]]]; [| | |lia]; (destruct i as [|[|[|]]]; [| | |lia]); (destruct j as [|[|[|]]]; [| | |lia]); try contradiction; cbn; lia.
Qed.

Example C93_case :
  exists e cs cs', resampler_resample false isort MostNegative (tree_nearest isort first_min) line_dist b64_inf line_evs = Some (e, cs) /\
    resampler_resample false isort MostNegative (naive_nearest first_min) line_dist b64_inf line_evs = Some (e, cs') /\
    map members cs = map members cs' /\ map members cs = [[0%nat; 1%nat]].
Proof.
  assert (Bb : / 2 ^ 400 <= 16 <= 2 ^ 500).
  { split; [apply Rle_trans with 1; [rewrite <- Rinv_1; apply Rinv_le_contravar; [lra|apply pow_R1_Rle; lra]|lra]|].
    apply Rle_trans with (2 ^ 4); [lra|apply Rle_pow; [lra|lia]]. }
  assert (Tb : 1 <= 1 <= 2 ^ 9) by (split; [lra|apply pow_R1_Rle; lra]).
  assert (W0 : within 1 (n0 : B64)) by (split; [split; reflexivity|change (b64_val (n0 : B64)) with 0; rewrite Rabs_R0; lra]).
  pose proof (C93_run isort first_min first_min (fun _ _ => n0) 16 1 n0 false 1 MostNegative line_evs line_pss line_dist line_x b64_inf (naive_nearest first_min)
    isort_ok first_min_ok first_min_ok Bb Tb W0 (or_intror eq_refl)) as R.
  assert (F2 : forall (i : nat) (w : Z), (i < 3)%nat -> (Z.abs w <= 100)%Z -> ev_out (line_ev i w) = ev_out (build isort (made (N := B64) false (line_ps i) [])) /\ few_upto (fun _ _ => n0) 16 1 (line_ps i) /\ Forall not_nan (ev_weights (line_ev i w))).
  { intros i w Hi Hw. split; [unfold line_ev; rewrite !made_eq; reflexivity|]. split; [apply line_few; exact Hi|]. unfold line_ev. rewrite made_eq. cbn [build b_weights ev_weights last].
    apply Forall_cons; [|apply Forall_nil]. apply b64_fin_not_nan, b64_of_Z_val. lia. }
  assert (Cs : option_map (fun r => map members (snd r)) (resampler_resample false isort MostNegative (tree_nearest isort first_min) line_dist b64_inf line_evs) = Some [[0%nat; 1%nat]]) by vmr.
  assert (P3 : forall i ps, nth_error line_pss i = Some ps -> (i < 3)%nat /\ ps = line_ps i).
  { intros i ps. destruct i as [|[|[|]]]; cbn; intros E; try (injection E as <-; split; [lia|reflexivity]). destruct n; discriminate E. }
  match type of R with ?A -> ?B -> ?C -> ?D -> ?E -> ?F -> ?G -> ?H => assert (H) as R' end.
  { apply R.
    - unfold line_evs, line_pss. repeat (apply Forall2_cons; [apply F2; lia|]). apply Forall2_nil.
    - lia.
    - intros e1 e2 H1 H2. unfold line_dist.
      assert (D : exists d, distance isort (fun _ _ => n0) n0 e1 e2 = Some d).
      { assert (K : forall e, In e line_evs -> exists i w, (i < 3)%nat /\ e = line_ev i w) by (intros e [<-|[<-|[<-|[]]]]; do 2 eexists; (split; [|reflexivity]); lia).
        destruct (K e1 H1) as (i & w & Hi & ->), (K e2 H2) as (j & w' & Hj & ->).
        destruct (C92_distance isort (fun _ _ => n0) 16 1 n0 false 1 1 (line_ps i) (line_ps j) [b64_of_Z w] [b64_of_Z w'] isort_ok Bb Tb W0 (line_few _ i Hi) (line_few _ j Hj) ltac:(lia)) as (d & r & E & _).
        exists d. exact E. }
      destruct D as (d & ->). reflexivity.
    - intros i j ps1 ps2 E1 E2. destruct (P3 i ps1 E1) as [Hi ->], (P3 j ps2 E2) as [Hj ->]. apply line_exact; assumption.
    - exact line_separated.
    - vm_compute. discriminate.
    - left. reflexivity. }
  destruct (resampler_resample false isort MostNegative (tree_nearest isort first_min) line_dist b64_inf line_evs) as [[e cs]|]; [|discriminate Cs].
  destruct (resampler_resample false isort MostNegative (naive_nearest first_min) line_dist b64_inf line_evs) as [[e' cs']|]; [|contradiction].
  destruct R' as (-> & M & _). exists e', cs, cs'. repeat split; auto. cbn [option_map snd] in Cs. injection Cs as Cs. exact Cs.
Qed.
