(** Distances in binary64 are finite: sets of momenta and events *)
From Coq Require Import ZArith Reals Lra Lia Permutation SpecFloat.
From Flocq Require Import Core.Core IEEE754.BinarySingleNaN.
From Verif Require Import Base BaseProofs Num ModelEvent ModelDistance SpecWeights SpecEvent SpecDistance B64Proofs B64Errors B64Finite SpecMoments EventProofs DistanceProofs DistanceProofs2 PropsDistance B64Distance.
Set Implicit Arguments.
Local Open Scope R_scope.

Lemma opp_within b x : within b x -> within b (nopp (n := B64) x).
Proof.
  intros [[Hv Hf] H]. split; [split|].
  - destruct x; exact Hv.
  - destruct x; try discriminate; reflexivity.
  - replace (b64_val (nopp (n := B64) x)) with (- b64_val x); [rewrite Rabs_Ropp; exact H|].
    destruct x as [s|s| |s m e]; try discriminate; cbn; [lra|]. unfold b64_val, SF2R, F2R. cbn [Fnum Fexp SFopp]. destruct s; cbn [cond_Zopp negb]; [|].
    + change (Z.neg m) with (- Z.pos m)%Z. rewrite opp_IZR. ring.
    + change (Z.neg m) with (- Z.pos m)%Z. rewrite opp_IZR. ring.
Qed.

(** *** the loop over the types *)
Section Merge.
Context (sort : sorter) (km : assignment B64) (tau : B64) (B : nat -> B64 -> Prop) (G : list (FourVector B64) -> Prop).
Let small (n : nat) := (Z.of_nat n <= 2 ^ 53)%Z.
Hypothesis B0 : B 0 n0.
Hypothesis HB : forall a b x y, B a x -> B b y -> small (a + b) -> B (a + b) (nadd (n := B64) x y).
Hypothesis Hnorm : forall P, G P -> small (length P) -> B (length P) (set_norm tau P).
Hypothesis Hmin : forall P Q, G P -> G Q -> small (length P + length Q) -> exists d, min_paired_distance sort km tau P Q = Some d /\ B (length P + length Q) d.
Definition count (l : list (Z * list (FourVector B64))) : nat := list_sum (map (fun g => length (snd g)) l).

Lemma norms_B l : forall k x, Forall (fun g => G (snd g)) l -> B k x -> small (k + count l) ->
  B (k + count l) (fold_left (nadd (n := B64)) (map (fun g => set_norm tau (snd g)) l) x).
Proof.
  induction l as [|[t P] l IH]; intros k x HG Hx Hk.
  - cbn. rewrite Nat.add_0_r. exact Hx.
  - inversion HG as [|? ? HP HG']; subst. cbn [snd] in HP. change (count ((t, P) :: l)) with (length P + count l)%nat in *.
    cbn [map fold_left snd]. rewrite Nat.add_assoc in *. apply IH; [exact HG'| |exact Hk].
    apply HB; [exact Hx|apply Hnorm; [exact HP|]|]; unfold small in *; lia.
Qed.

Lemma merge_B : forall out1 out2 k x, Forall (fun g => G (snd g)) out1 -> Forall (fun g => G (snd g)) out2 -> B k x ->
  small (k + count out1 + count out2) ->
  exists d, merge_loop sort km tau x out1 out2 = Some d /\ B (k + count out1 + count out2) d.
Proof.
  assert (L : forall l k x, Forall (fun g => G (snd g)) l -> B k x -> small (k + count l) ->
    B (k + count l) (nadd (n := B64) x (nsum (N := B64) (map (fun g => set_norm tau (snd g)) l)))).
  { intros l k x HG Hx Hk. apply HB; [exact Hx| |exact Hk]. apply (@norms_B l 0%nat n0 HG B0). unfold small in *. lia. }
  induction out1 as [|[t1 P1] out1 IH]; intros out2.
  - intros k x _ H2 Hx Hk. destruct out2 as [|g out2]; [eexists; split; [reflexivity|]; cbn; rewrite !Nat.add_0_r; exact Hx|].
    eexists. split; [reflexivity|]. change (count []) with 0%nat in *. rewrite Nat.add_0_r in *. apply L; assumption.
  - induction out2 as [|[t2 P2] out2 IH2]; intros k x H1 H2 Hx Hk.
    + eexists. split; [reflexivity|]. change (count []) with 0%nat in *. rewrite Nat.add_0_r in *. apply (L ((t1, P1) :: out1)); assumption.
    + inversion H1 as [|? ? HP1 H1']; subst. inversion H2 as [|? ? HP2 H2']; subst. cbn [snd] in HP1, HP2.
      change (count ((t1, P1) :: out1)) with (length P1 + count out1)%nat in *. change (count ((t2, P2) :: out2)) with (length P2 + count out2)%nat in *.
      cbn [merge_loop]. destruct (Z.compare t1 t2).
      * destruct (@Hmin P1 P2 HP1 HP2) as (d & -> & Hd); [unfold small in *; lia|].
        replace (k + (length P1 + count out1) + (length P2 + count out2))%nat with ((k + (length P1 + length P2)) + count out1 + count out2)%nat in * by lia.
        apply IH; [exact H1'|exact H2'| |exact Hk]. apply HB; [exact Hx|exact Hd|unfold small in *; lia].
      * replace (k + (length P1 + count out1) + (length P2 + count out2))%nat with ((k + length P2) + (length P1 + count out1) + count out2)%nat in * by lia.
        apply IH2; [exact H1|exact H2'| |exact Hk]. apply HB; [exact Hx|apply Hnorm; [exact HP2|]|]; unfold small in *; lia.
      * replace (k + (length P1 + count out1) + (length P2 + count out2))%nat with ((k + length P1) + count out1 + (length P2 + count out2))%nat in * by lia.
        apply (IH ((t2, P2) :: out2)); [exact H1'|exact H2| |exact Hk]. apply HB; [exact Hx|apply Hnorm; [exact HP1|]|]; unfold small in *; lia.
Qed.
End Merge.

(** *** one type *)
Section Type_.
Context (sort : sorter) (Hsort : sort_ok sort) (tau : B64) (Htau : within (2 ^ 9) tau).

Lemma padded P (Q : list (FourVector B64)) : Forall moderate P -> (length P <= length Q)%nat ->
  Forall moderate (@sort (FourVector B64) (@fv_leb B64) (P ++ repeat (@fv_new B64) (length Q - length P))) /\
  length (@sort (FourVector B64) (@fv_leb B64) (P ++ repeat (@fv_new B64) (length Q - length P))) = length Q.
Proof.
  intros HP HL. assert (HP' : Forall moderate (P ++ repeat (@fv_new B64) (length Q - length P))).
  { apply Forall_app. split; [exact HP|]. apply Forall_forall. intros p Hp. apply repeat_spec in Hp as ->. exact moderate_new. }
  destruct (@Hsort _ (@fv_leb B64) (P ++ repeat (@fv_new B64) (length Q - length P))) as [Pm _].
  { apply (fv_preorder B64_cmp). intros p Hp. rewrite Forall_forall in HP'. apply moderate_not_nan. auto. }
  split; [eapply Permutation_Forall; [exact Pm|exact HP']|].
  rewrite <- (Permutation_length Pm), app_length, repeat_length. lia.
Qed.

Lemma naive_upto P Q : Forall moderate P -> Forall moderate Q -> (Z.of_nat (length P) <= 2 ^ 53)%Z ->
  exists d, min_paired_distance_naive tau (@sort (FourVector B64) (@fv_leb B64) P) Q = Some d /\ upto (INR (length P) * 2 ^ 512) d.
Proof.
  intros HP HQ HL. assert (U : forall m, Permutation P m -> upto (INR (length P) * 2 ^ 512) (paired_distance tau m Q)).
  { intros m Hm. rewrite (Permutation_length Hm) in *. apply paired_upto; [exact Htau| |exact HQ|exact HL]. eapply Permutation_Forall; eassumption. }
  destruct (@C22_enumeration_binary64 sort tau P Q Hsort) as (r & E & (m & Hm & ->) & _).
  - eapply Forall_impl; [|exact HP]. exact moderate_not_nan.
  - intros m Hm. apply b64_fin_not_nan. exact (proj1 (U m Hm)).
  - exists (paired_distance tau m Q). split; [exact E|]. apply U. exact Hm.
Qed.

Lemma le_upto km P Q : Forall moderate P -> Forall moderate Q -> (length P <= length Q)%nat -> (length Q <= 3)%nat ->
  exists d, min_paired_distance_le sort km tau P Q = Some d /\ upto (INR (length Q) * 2 ^ 512) d.
Proof.
  intros HP HQ HL H3. destruct (@padded P Q HP HL) as [HF HF'].
  unfold min_paired_distance_le. set (P' := P ++ _) in *. cbv zeta. rewrite HF'.
  assert (N : exists d, min_paired_distance_naive tau (@sort (FourVector B64) (@fv_leb B64) P') Q = Some d /\ upto (INR (length Q) * 2 ^ 512) d).
  { assert (LP : length P' = length Q) by (unfold P'; rewrite app_length, repeat_length; lia). rewrite <- LP. apply naive_upto; [|exact HQ|lia].
    unfold P'. apply Forall_app. split; [exact HP|]. apply Forall_forall. intros p Hp. apply repeat_spec in Hp as ->. exact moderate_new. }
  destruct (length Q) as [|[|n]] eqn:EQ.
  - exists n0. split; [reflexivity|]. apply upto_0. cbn. lra.
  - destruct (@sort (FourVector B64) (@fv_leb B64) P') as [|a l]; [discriminate|]. destruct Q as [|b Q]; [discriminate|].
    exists (pt_dist a b tau). split; [reflexivity|]. cbn [INR]. rewrite Rmult_1_l. inversion HF; inversion HQ; subst. apply pt_dist_upto; assumption.
  - replace (S (S n) <=? max_part_naive) with true by (symmetry; apply Nat.leb_le; unfold max_part_naive; lia).
    exact N.
Qed.

Lemma min_upto km P Q : Forall moderate P -> Forall moderate Q -> (length P <= 3)%nat -> (length Q <= 3)%nat ->
  exists d, min_paired_distance sort km tau P Q = Some d /\ upto (INR (length P + length Q) * 2 ^ 512) d.
Proof.
  intros HP HQ H1 H2. unfold min_paired_distance. destruct (Nat.ltb_spec (length Q) (length P)) as [H|H].
  - destruct (@le_upto km Q P HQ HP ltac:(lia) H1) as (d & E & Hd). exists d. split; [exact E|]. eapply upto_mono; [exact Hd|].
    apply Rmult_le_compat_r; [apply Rlt_le, pow_pos|apply le_INR; lia].
  - destruct (@le_upto km P Q HP HQ H H2) as (d & E & Hd). exists d. split; [exact E|]. eapply upto_mono; [exact Hd|].
    apply Rmult_le_compat_r; [apply Rlt_le, pow_pos|apply le_INR; lia].
Qed.

Lemma le_within km P Q : km_tame km -> Forall moderate P -> Forall moderate Q -> (length P <= length Q)%nat -> (Z.of_nat (length Q) <= 2 ^ 53)%Z ->
  exists d, min_paired_distance_le sort km tau P Q = Some d /\ within (INR (length Q) * 2 ^ 513) d.
Proof.
  intros Hkm HP HQ HL Hn. destruct (Nat.leb_spec (length Q) 3) as [H3|H3].
  { destruct (@le_upto km P Q HP HQ HL H3) as (d & E & Hd). exists d. split; [exact E|]. eapply within_mono; [apply upto_within; exact Hd|].
    apply Rmult_le_compat_l; [apply pos_INR|apply pow_mono; lia]. }
  destruct (@padded P Q HP HL) as [HF HF']. unfold min_paired_distance_le. set (P' := P ++ _) in *. cbv zeta. rewrite HF'.
  remember (@sort (FourVector B64) (@fv_leb B64) P') as S' eqn:ES. destruct (length Q) as [|[|n]] eqn:EQ; try lia.
  replace (S (S n) <=? max_part_naive) with false by (symmetry; apply Nat.leb_gt; unfold max_part_naive; lia). rewrite <- EQ in *.
  unfold min_paired_distance_hungarian, sm_from. rewrite map_length, prod_length, HF', Nat.sqrt_square, Nat.eqb_refl.
  eexists. split; [reflexivity|]. unfold kuhn_munkres_min. apply opp_within. cbn [sm_neg sm_rows sm_entries]. apply Hkm; [exact Hn|].
  intros i j _ _. unfold sm_at, sm_neg. cbn [sm_rows sm_entries]. match goal with |- within _ (nth _ ?x _) => set (l := x) end.
  assert (A : Forall (within (2 ^ 512)) l).
  { unfold l. apply Forall_map, Forall_map. apply Forall_forall. intros [p q] Hin. apply in_prod_iff in Hin as [Hp Hq]. rewrite Forall_forall in HF, HQ.
    apply opp_within, upto_within. cbn [fst snd]. apply pt_dist_upto; auto. }
  destruct (nth_in_or_default (i * length Q + j) l (n0 : B64)) as [Hin|E].
  - rewrite Forall_forall in A. apply A. exact Hin.
  - eapply eq_rect; [apply (@within_0 (2 ^ 512)), Rlt_le, pow_pos|symmetry; exact E].
Qed.
Lemma min_within km P Q : km_tame km -> Forall moderate P -> Forall moderate Q -> (Z.of_nat (length P + length Q) <= 2 ^ 53)%Z ->
  exists d, min_paired_distance sort km tau P Q = Some d /\ within (INR (length P + length Q) * 2 ^ 513) d.
Proof.
  intros Hkm HP HQ Hn. unfold min_paired_distance. destruct (Nat.ltb_spec (length Q) (length P)) as [H|H].
  - destruct (@le_within km Q P Hkm HQ HP ltac:(lia) ltac:(lia)) as (d & E & Hd). exists d. split; [exact E|]. eapply within_mono; [exact Hd|].
    apply Rmult_le_compat_r; [apply Rlt_le, pow_pos|apply le_INR; lia].
  - destruct (@le_within km P Q Hkm HP HQ H ltac:(lia)) as (d & E & Hd). exists d. split; [exact E|]. eapply within_mono; [exact Hd|].
    apply Rmult_le_compat_r; [apply Rlt_le, pow_pos|apply le_INR; lia].
Qed.

Lemma INR_small n : (Z.of_nat n <= 2 ^ 53)%Z -> INR n <= 2 ^ 53.
Proof. intros H. rewrite INR_IZR_INZ. apply IZR_le in H. eapply Rle_trans; [exact H|]. rewrite <- bpow_pow. right. reflexivity. Qed.
Lemma count_big n k : (Z.of_nat n <= 2 ^ 53)%Z -> (53 + k <= 1023)%nat -> INR n * 2 ^ k <= big.
Proof.
  intros H Hk. apply Rle_trans with (2 ^ 53 * 2 ^ k); [|rewrite pow_add; apply pow_big; exact Hk].
  apply Rmult_le_compat_r; [apply Rlt_le, pow_pos|apply INR_small; exact H].
Qed.

Lemma distance_few km e1 e2 : moderate_event e1 -> moderate_event e2 -> few_of_each e1 -> few_of_each e2 ->
  (Z.of_nat (particles e1 + particles e2) <= 2 ^ 53)%Z ->
  exists d, distance sort km tau e1 e2 = Some d /\ upto (INR (particles e1 + particles e2) * 2 ^ 512) d.
Proof.
  intros M1 M2 F1 F2 Hn.
  apply (@merge_B sort km tau (fun k x => upto (INR k * 2 ^ 512) x) (fun P => Forall moderate P /\ (length P <= 3)%nat)) with (k := 0%nat) (out1 := ev_out e1) (out2 := ev_out e2).
  - apply upto_0. cbn. lra.
  - intros a b x y Ha Hb Hs. apply (@add_upto _ _ _ _ _ Ha Hb); [rewrite plus_INR; lra|apply fmt_mult; exact Hs|apply count_big; [exact Hs|lia]].
  - intros P [HP _] Hs. apply set_norm_upto; assumption.
  - intros P Q [HP H1] [HQ H2] _. apply min_upto; assumption.
  - apply Forall_and; assumption.
  - apply Forall_and; assumption.
  - apply upto_0. cbn. lra.
  - exact Hn.
Qed.
Lemma distance_within km e1 e2 : km_tame km -> moderate_event e1 -> moderate_event e2 ->
  (Z.of_nat (particles e1 + particles e2) <= 2 ^ 53)%Z ->
  exists d, distance sort km tau e1 e2 = Some d /\ within (INR (particles e1 + particles e2) * 2 ^ 513) d.
Proof.
  intros Hkm M1 M2 Hn.
  apply (@merge_B sort km tau (fun k x => within (INR k * 2 ^ 513) x) (fun P => Forall moderate P)) with (k := 0%nat) (out1 := ev_out e1) (out2 := ev_out e2).
  - apply within_0. cbn. lra.
  - intros a b x y [Fx Hx] [Fy Hy] Hs. apply add_v; [exact Fx|exact Fy|apply fmt_mult; exact Hs|apply count_big; [exact Hs|lia]|].
    eapply Rle_trans; [apply Rabs_triang|]. rewrite plus_INR. lra.
  - intros P HP Hs. eapply within_mono; [apply upto_within, set_norm_upto; [exact Htau|exact HP|exact Hs]|].
    apply Rmult_le_compat_l; [apply pos_INR|apply pow_mono; lia].
  - intros P Q HP HQ Hs. apply min_within; assumption.
  - exact M1.
  - exact M2.
  - apply within_0. cbn. lra.
  - exact Hn.
Qed.
End Type_.
