(** Lemmas about [ModelDistance]. *)
From Coq Require Import Reals ZArith Lra SpecFloat.
From Verif Require Import Base BaseProofs Num ModelEvent ModelDistance SpecWeights SpecEvent SpecDistance
  SumProofs CellProofs EventProofs PermProofs PairingProofs.
Set Implicit Arguments.
Unset Strict Implicit.

(** *** The enumeration, any arithmetic *)
Lemma nmin_spec (N : NumOps) (D : N -> Prop) (a b : N) : cmp_on N D -> D a -> D b ->
  (nmin a b = a \/ nmin a b = b) /\ nleb (nmin a b) a = true /\ nleb (nmin a b) b = true.
Proof.
  intros [[[Htot Htr] Hlt] Heq] Ha Hb. unfold nmin, ncmp. rewrite (Hlt a b Ha Hb).
  assert (Haa : nleb a a = true) by (destruct (Htot a a); auto).
  assert (Hbb : nleb b b = true) by (destruct (Htot b b); auto).
  pose proof (Htot a b Ha Hb) as Hab. rewrite (Heq a b Ha Hb).
  destruct (nleb b a) eqn:E1, (nleb a b) eqn:E2; cbn; auto.
  destruct Hab; discriminate.
Qed.

Section Enumeration.
Context (N : NumOps) (D : N -> Prop) (tau : N) (l0 p2 : list (FourVector N)).
Hypothesis HD : cmp_on N D.
Hypothesis Hpre : total_preorder_on (fun p => In p l0) (@fv_leb N).
Hypothesis Hnum : forall m, Permutation l0 m -> D (paired_distance tau m p2).
Hypothesis Hcong : forall p p' q, In p l0 -> In p' l0 -> In q p2 ->
  tied (@fv_leb N) p p' -> pt_dist p q tau = pt_dist p' q tau.

Lemma paired_cong l m : Permutation l0 l -> Permutation l0 m -> Forall2 (tied (@fv_leb N)) l m ->
  paired_distance tau l p2 = paired_distance tau m p2.
Proof.
  intros Hl Hm H. unfold paired_distance. f_equal.
  assert (Hl' : forall p, In p l -> In p l0) by (intros p; apply Permutation_in; symmetry; auto).
  assert (Hm' : forall p, In p m -> In p l0) by (intros p; apply Permutation_in; symmetry; auto).
  revert Hl' Hm'. revert Hcong. clear - H. generalize p2 as q2.
  induction H as [|p p' l m E F IH]; intros [|q q2] Hc Hl Hm; cbn; auto. f_equal.
  - apply Hc; auto; [apply Hl|apply Hm|]; left; auto.
  - apply IH.
    + intros; apply Hc; auto; right; auto.
    + intros; apply Hl; right; auto.
    + intros; apply Hm; right; auto.
Qed.

Lemma loop_spec fuel : forall l md, Permutation l0 l -> D md -> remaining (@fv_leb N) l0 l < fuel ->
  exists r, naive_loop tau fuel l p2 md = Some r /\ D r /\
    (r = md \/ exists m, Permutation l0 m /\ r = paired_distance tau m p2) /\
    nleb r md = true /\
    forall m, Permutation l0 m -> lexlt (map (rank (@fv_leb N) l0) l) (map (rank (@fv_leb N) l0) m) ->
      nleb r (paired_distance tau m p2) = true.
Proof.
  induction fuel as [|fuel IH]; intros l md Hl Hmd Hrem; [lia|]. cbn [naive_loop].
  pose proof (np_step Hpre Hl) as Hstep.
  destruct (next_permutation fv_leb l) as [l'|] eqn:E.
  - destruct Hstep as [Hl' Hnext]. pose proof (remaining_next Hpre Hl E) as Hdec.
    pose proof (Hnum Hl') as Hd'. destruct (nmin_spec HD Hmd Hd') as (Hm1 & Hm2 & Hm3).
    assert (HDm : D (nmin md (paired_distance tau l' p2))) by (destruct Hm1 as [->| ->]; auto).
    destruct (IH l' _ Hl' HDm) as (r & E' & Hr & Hval & Hle & Hall); [lia|].
    exists r. split; auto. split; auto. destruct HD as [[[_ Htr] _] _]. split; [|split].
    + destruct Hval as [->|Hval]; auto. destruct Hm1 as [->|Hm1]; auto. right. exists l'. auto.
    + eapply Htr with (y := nmin md _); eauto.
    + intros m Hm Hlt. destruct (Hnext m Hm Hlt) as [Ht|Ht]; auto.
      rewrite <- (paired_cong Hl' Hm Ht). eapply Htr with (y := nmin md _); eauto.
  - exists md. split; auto. split; auto. split; auto. split.
    + destruct HD as [[[Htot _] _] _]. destruct (Htot md md); auto.
    + intros m Hm Hlt. destruct (Hstep m Hm Hlt).
Qed.

Lemma enumeration : ordered fv_leb l0 ->
  exists r, min_paired_distance_naive tau l0 p2 = Some r /\
    (exists m, Permutation l0 m /\ r = paired_distance tau m p2) /\
    forall m, Permutation l0 m -> nleb r (paired_distance tau m p2) = true.
Proof.
  intros Ho. assert (Hrefl : Permutation l0 l0) by auto. unfold min_paired_distance_naive.
  destruct (@loop_spec (fact (length l0)) l0 _ Hrefl (Hnum Hrefl)) as (r & E & Hr & Hval & Hle & Hall).
  { apply remaining_bound; auto. }
  exists r. split; auto. split.
  - destruct Hval as [->|Hval]; auto. exists l0. auto.
  - intros m Hm. destruct (sorted_start Hpre Hrefl Hm Ho) as [Ht|Ht]; auto.
    rewrite <- (paired_cong Hrefl Hm Ht). auto.
Qed.

End Enumeration.

(** *** Real numbers: the momentum distance *)
Local Open Scope R_scope.

Lemma pt_dist_RN (tau : R) (p q : FourVector RN) : physical p -> physical q ->
  pt_dist (N := RN) p q tau = mom_dist tau p q.
Proof.
  unfold physical, pt_dist, pt_dist_sq, mom_dist. intros -> ->. unfold spatial_norm_sq, fv_sub, nsum.
  cbn [nsqrt RN fold_left nadd nmul nsub n0 update_pt fv_x fv_y fv_z fv_pt fv_e]. rn. f_equal. ring.
Qed.

Lemma zero_physical : physical zero_mom.
Proof. unfold physical, pt_of, zero_mom. cbn. rewrite Rmult_0_l, Rplus_0_l, sqrt_0. reflexivity. Qed.

Lemma fv_new_RN : @fv_new RN = zero_mom.
Proof. reflexivity. Qed.

Lemma pt_norm_RN (tau : R) (p : FourVector RN) : physical p -> pt_norm (N := RN) p tau = mom_dist tau p zero_mom.
Proof.
  unfold mom_dist. rewrite <- zero_physical. unfold physical, pt_norm, pt_norm_sq. intros ->.
  unfold spatial_norm_sq, nsum.
  cbn [nsqrt RN fold_left nadd nmul nsub n0 zero_mom fv_x fv_y fv_z fv_pt fv_e]. rn. f_equal. ring.
Qed.

Lemma mom_nonneg tau p q : 0 <= mom_dist tau p q.
Proof. apply sqrt_pos. Qed.

Lemma mom_refl tau p : mom_dist tau p p = 0.
Proof. unfold mom_dist. rewrite !Rminus_diag_eq by reflexivity. replace (0 ^ 2 + 0 ^ 2 + 0 ^ 2 + tau ^ 2 * 0 ^ 2) with 0 by ring. apply sqrt_0. Qed.

Lemma mom_sym tau p q : mom_dist tau p q = mom_dist tau q p.
Proof. unfold mom_dist. f_equal. ring. Qed.

Lemma minkowski (a b c e a' b' c' e' : R) :
  sqrt ((a + a') ^ 2 + (b + b') ^ 2 + (c + c') ^ 2 + (e + e') ^ 2)
  <= sqrt (a ^ 2 + b ^ 2 + c ^ 2 + e ^ 2) + sqrt (a' ^ 2 + b' ^ 2 + c' ^ 2 + e' ^ 2).
Proof.
  set (s := a ^ 2 + b ^ 2 + c ^ 2 + e ^ 2). set (s' := a' ^ 2 + b' ^ 2 + c' ^ 2 + e' ^ 2).
  assert (Hs : 0 <= s) by (unfold s; pose proof (pow2_ge_0 a); pose proof (pow2_ge_0 b);
    pose proof (pow2_ge_0 c); pose proof (pow2_ge_0 e); lra).
  assert (Hs' : 0 <= s') by (unfold s'; pose proof (pow2_ge_0 a'); pose proof (pow2_ge_0 b');
    pose proof (pow2_ge_0 c'); pose proof (pow2_ge_0 e'); lra).
  set (t := a * a' + b * b' + c * c' + e * e').
  assert (Hcs : t <= sqrt s * sqrt s').
  { rewrite <- sqrt_mult by auto. apply Rle_trans with (Rabs t); [apply Rle_abs|].
    rewrite <- sqrt_Rsqr_abs. apply sqrt_le_1_alt. unfold Rsqr, t, s, s'.
    pose proof (pow2_ge_0 (a * b' - b * a')). pose proof (pow2_ge_0 (a * c' - c * a')).
    pose proof (pow2_ge_0 (a * e' - e * a')). pose proof (pow2_ge_0 (b * c' - c * b')).
    pose proof (pow2_ge_0 (b * e' - e * b')). pose proof (pow2_ge_0 (c * e' - e * c')). lra. }
  apply Rsqr_incr_0_var; [|pose proof (sqrt_pos s); pose proof (sqrt_pos s'); lra].
  rewrite Rsqr_sqrt.
  - unfold Rsqr. replace ((sqrt s + sqrt s') * (sqrt s + sqrt s'))
      with (sqrt s * sqrt s + sqrt s' * sqrt s' + 2 * (sqrt s * sqrt s')) by ring.
    rewrite !sqrt_sqrt by auto. unfold s, s', t in *. lra.
  - pose proof (pow2_ge_0 (a + a')). pose proof (pow2_ge_0 (b + b')).
    pose proof (pow2_ge_0 (c + c')). pose proof (pow2_ge_0 (e + e')). lra.
Qed.

Lemma mom_tri tau p q r : mom_dist tau p r <= mom_dist tau p q + mom_dist tau q r.
Proof.
  unfold mom_dist.
  pose proof (minkowski (fv_x p - fv_x q) (fv_y p - fv_y q) (fv_z p - fv_z q) (tau * (pt_of p - pt_of q))
                        (fv_x q - fv_x r) (fv_y q - fv_y r) (fv_z q - fv_z r) (tau * (pt_of q - pt_of r))) as H.
  eapply Rle_trans; [|eapply Rle_trans; [exact H|]]; right.
  - f_equal. ring.
  - f_equal; f_equal; ring.
Qed.

(** *** Sets of momenta *)
Lemma min_pairing_mp tau P Q v : min_pairing tau P Q v <-> mp (mom_dist tau) zero_mom P Q v.
Proof.
  unfold min_pairing, mp. symmetry. apply ismin_combine. unfold filled, fil; rewrite !app_length, !repeat_length; lia.
Qed.

Lemma paired_RN tau P Q : Forall physical P -> Forall physical Q ->
  paired_distance (N := RN) tau P Q = cost (mom_dist tau) (combine P Q).
Proof.
  intros HP HQ. unfold paired_distance, cost. rewrite nsum_RN. f_equal.
  revert Q HQ. induction HP as [|p P Hp HP IH]; intros [|q Q] HQ; cbn; auto. inversion HQ; subst.
  f_equal; auto. apply pt_dist_RN; auto.
Qed.

Lemma tied_RN (p q : FourVector RN) : tied (@fv_leb RN) p q -> p = q.
Proof.
  intros [H1 H2]. apply mom_eqv_RN. eapply (fv_eqv_spec RN_cmp); auto; repeat constructor.
Qed.

Lemma fv_pre_RN (P : FourVector RN -> Prop) : total_preorder_on P (@fv_leb RN).
Proof. apply (fv_preorder RN_cmp). intros; repeat constructor. Qed.

Lemma naive_RN tau P Q : Forall physical P -> Forall physical Q -> length P = length Q -> ordered fv_leb P ->
  exists v, min_paired_distance_naive (N := RN) tau P Q = Some v /\ ismin (mom_dist tau) P Q v.
Proof.
  intros HP HQ E Ho.
  destruct (@enumeration RN (fun _ => True) tau P Q RN_cmp (fv_pre_RN _)) as (v & Hv & (m & Hm & Em) & Hmin); auto.
  { intros p p' q _ _ _ H. apply tied_RN in H. subst. auto. }
  exists v. split; auto. apply ismin_combine; auto. split.
  - exists m. split; auto. rewrite Em. apply paired_RN; auto. eapply Permutation_Forall; eauto.
  - intros m' Hm'. specialize (Hmin _ Hm'). apply Rleb_true in Hmin. rewrite paired_RN in Hmin; auto.
    eapply Permutation_Forall; eauto.
Qed.

Lemma list_prod_nth A B (d1 : A) (d2 : B) (l1 : list A) (l2 : list B) i j :
  (i < length l1)%nat -> (j < length l2)%nat ->
  nth (i * length l2 + j) (list_prod l1 l2) (d1, d2) = (nth i l1 d1, nth j l2 d2).
Proof.
  revert i. induction l1 as [|a l1 IH]; intros i Hi Hj; cbn [length] in Hi; [lia|]. cbn [list_prod].
  destruct i as [|i].
  - rewrite app_nth1 by (rewrite map_length; cbn; lia). cbn [Nat.mul Nat.add nth].
    rewrite (nth_indep _ _ (a, d2)) by (rewrite map_length; auto). apply map_nth.
  - rewrite app_nth2 by (rewrite map_length; cbn; lia). rewrite map_length.
    replace (S i * length l2 + j - length l2)%nat with (i * length l2 + j)%nat by (cbn; lia).
    cbn [nth]. apply IH; lia.
Qed.

Lemma map_nth_seq A (d : A) (l : list A) : map (fun i => nth i l d) (seq 0 (length l)) = l.
Proof.
  induction l as [|a l IH]; auto. cbn [length seq map nth]. f_equal. rewrite <- seq_shift, map_map. auto.
Qed.

Lemma km_min_RN (km : assignment RN) tau P Q : km_ok km -> Forall physical P -> Forall physical Q ->
  length P = length Q ->
  exists v, min_paired_distance_hungarian (N := RN) km tau P Q = Some v /\ ismin (mom_dist tau) P Q v.
Proof.
  intros Hkm HP HQ E. unfold min_paired_distance_hungarian, sm_from. rewrite map_length, prod_length, E.
  set (n := length Q). rewrite Nat.sqrt_square, Nat.eqb_refl. eexists. split; [reflexivity|].
  unfold kuhn_munkres_min. cbn [sm_neg sm_rows sm_entries sm_at].
  set (entries := map nopp (map (fun x => pt_dist (fst x) (snd x) tau) (list_prod P Q))).
  set (w := sm_at (@mkSM RN entries n)).
  assert (Hw : forall i j, (i < n)%nat -> (j < n)%nat ->
    w i j = - mom_dist tau (nth i P zero_mom) (nth j Q zero_mom)).
  { intros i j Hi Hj. unfold w, sm_at, entries. cbn [sm_rows sm_entries].
    set (g := fun x : FourVector RN * FourVector RN => nopp (pt_dist (N := RN) (fst x) (snd x) tau)).
    rewrite map_map. change (nth (i * n + j) (map g (list_prod P Q)) n0 = - mom_dist tau (nth i P zero_mom) (nth j Q zero_mom)).
    rewrite (nth_indep _ _ (g (zero_mom, zero_mom))).
    2:{ rewrite map_length, prod_length, E. fold n. assert (i * n + n <= n * n)%nat by nia. lia. }
    rewrite map_nth. unfold n. rewrite list_prod_nth by (auto; rewrite E; auto).
    unfold g. cbn [fst snd nopp RN]. rewrite pt_dist_RN; auto.
    - rewrite Forall_forall in HP. apply HP, nth_In. rewrite E; auto.
    - rewrite Forall_forall in HQ. apply HQ, nth_In. auto. }
  assert (Hcost : forall s, Permutation (seq 0 n) s ->
    Rsum (map (fun ij => w (fst ij) (snd ij)) (combine (seq 0 n) s))
    = - cost (mom_dist tau) (combine P (map (fun j => nth j Q zero_mom) s))).
  { intros s Hs. rewrite <- (map_nth_seq zero_mom P) at 1. rewrite E. fold n. pose proof (Permutation_length Hs) as Hlen.
    assert (Hin : forall j, In j s -> (j < n)%nat).
    { intros j Hj. apply (Permutation_in j (Permutation_sym Hs)) in Hj. apply in_seq in Hj. lia. }
    assert (Hin0 : forall j, In j (seq 0 n) -> (j < n)%nat) by (intros j Hj; apply in_seq in Hj; lia).
    clear Hs. revert s Hin Hlen. induction (seq 0 n) as [|i r IH]; intros [|j s] Hin Hlen; cbn in Hlen; try discriminate; cbn [combine map].
    - rn. rewrite cost_nil, Rsum_nil. lra.
    - rn. rewrite cost_cons, Rsum_cons. rewrite IH; auto.
      + cbn [fst snd]. rewrite Hw; [lra|apply Hin0; left; auto|apply Hin; left; auto].
      + intros; apply Hin0; right; auto.
      + intros; apply Hin; right; auto. }
  assert (Hpair : forall s, Permutation (seq 0 n) s -> pairing P Q (combine P (map (fun j => nth j Q zero_mom) s))).
  { intros s Hs. pose proof (Permutation_length Hs) as Hlen. rewrite seq_length in Hlen.
    assert (Hl : length P = length (map (fun j => nth j Q zero_mom) s)) by (rewrite map_length, <- Hlen; exact E).
    split; [rewrite map_fst_combine; auto|]. rewrite map_snd_combine by auto.
    etransitivity; [apply Permutation_map; symmetry; exact Hs|]. unfold n. rewrite map_nth_seq. auto. }
  destruct (Hkm n w) as [(s & Hs & Es) Hmax]. split.
  - exists (combine P (map (fun j => nth j Q zero_mom) s)). split; auto. change (- km n w = cost (mom_dist tau) (combine P (map (fun j => nth j Q zero_mom) s))). rewrite Es, Hcost by auto. lra.
  - intros L HL. pose proof (pairing_swap HL) as HL'. apply pairing_combine in HL'. destruct HL' as (Q' & HQ' & HL').
    rewrite <- (map_nth_seq zero_mom Q) in HQ'. symmetry in HQ'. apply Permutation_map_inv in HQ'.
    destruct HQ' as (s' & -> & Hs'). fold n in Hs'. specialize (Hmax s' Hs'). rewrite Hcost in Hmax by auto.
    assert (Ec : cost (mom_dist tau) L = cost (mom_dist tau) (combine P (map (fun j => nth j Q zero_mom) s'))).
    { rewrite <- (@cost_swap _ (mom_dist tau) (@mom_sym tau) L), (cost_perm (mom_dist tau) HL').
      rewrite <- (@cost_swap _ (mom_dist tau) (@mom_sym tau)). f_equal.
      clear. generalize (map (fun j => nth j Q zero_mom) s') as l. clear. intros l. revert P.
      induction l as [|a l IH]; intros [|p P]; cbn; auto. f_equal. auto. }
    rewrite Ec. change (- km n w <= cost (mom_dist tau) (combine P (map (fun j => nth j Q zero_mom) s'))). lra.
Qed.

Section Sets.
Context (sort : sorter) (km : assignment RN) (tau : R).
Hypothesis Hsort : sort_ok sort.
Hypothesis Hkm : km_ok km.

Lemma le_RN P Q : Forall physical P -> Forall physical Q -> (length P <= length Q)%nat ->
  min_paired_distance_le (N := RN) sort km tau P Q = Some (minv (mom_dist tau) zero_mom P Q).
Proof.
  intros HP HQ Hle. unfold min_paired_distance_le. rewrite fv_new_RN.
  set (F := P ++ repeat zero_mom (length Q - length P)).
  destruct (@Hsort _ (@fv_leb RN) F (fv_pre_RN _)) as [Hp Ho].
  set (F' := sort (@fv_leb RN) F) in *.
  assert (HF : Forall physical F).
  { apply Forall_app. split; auto. apply Forall_forall. intros x Hx. apply repeat_spec in Hx. subst. apply zero_physical. }
  assert (HF' : Forall physical F') by (eapply Permutation_Forall; eauto).
  assert (Hlen : length F' = length Q).
  { rewrite <- (Permutation_length Hp). unfold F. rewrite app_length, repeat_length. lia. }
  assert (Hres : forall v, ismin (mom_dist tau) F' Q v -> v = minv (mom_dist tau) zero_mom P Q).
  { intros v Hv. apply mp_minv. unfold mp. replace (Nat.max (length P) (length Q)) with (length Q) by lia.
    eapply ismin_perm; [symmetry; exact Hp| |exact Hv]. unfold fil. rewrite Nat.sub_diag. cbn. rewrite app_nil_r. auto. }
  assert (Hrest : (if (length F' <=? max_part_naive)%nat then min_paired_distance_naive (N := RN) tau F' Q
                   else min_paired_distance_hungarian (N := RN) km tau F' Q)
                  = Some (minv (mom_dist tau) zero_mom P Q)).
  { destruct (length F' <=? max_part_naive)%nat.
    - destruct (@naive_RN tau F' Q) as (v & -> & Hv); auto. f_equal; auto.
    - destruct (@km_min_RN km tau F' Q) as (v & -> & Hv); auto. f_equal; auto. }
  clearbody F'. destruct F' as [|a [|b F'']].
  - cbn [length]. f_equal. apply Hres. destruct Q; [|discriminate]. split.
    + exists []. split; [split; constructor|]. symmetry. apply cost_nil.
    + intros L [HL _]. destruct L; [rewrite cost_nil; cbn; lra|]. apply Permutation_length in HL. discriminate.
  - cbn [length]. destruct Q as [|q [|]]; try discriminate. inversion HF'; inversion HQ; subst.
    rewrite pt_dist_RN by auto. f_equal. apply Hres. apply ismin_combine; auto. split.
    + exists [a]. split; auto. cbn. rewrite cost_cons, cost_nil. lra.
    + intros P' HP'. apply Permutation_length_1_inv in HP'. subst. cbn. rewrite cost_cons, cost_nil. lra.
  - cbn [length] in *. exact Hrest.
Qed.

Lemma set_RN P Q : Forall physical P -> Forall physical Q ->
  min_paired_distance (N := RN) sort km tau P Q = Some (minv (mom_dist tau) zero_mom P Q).
Proof.
  intros HP HQ. unfold min_paired_distance. destruct (Nat.ltb_spec (length Q) (length P)).
  - rewrite le_RN by (auto; lia). f_equal. apply mp_minv, mp_sym; [apply mom_sym|]. apply minv_spec.
  - apply le_RN; auto; lia.
Qed.

End Sets.

(** *** Events *)
Lemma Rsum_delta (f g : Z -> R) t c ids : NoDup ids -> In t ids ->
  (forall id, id <> t -> f id = g id) -> f t = g t + c -> Rsum (map f ids) = c + Rsum (map g ids).
Proof.
  intros Hnd Hin Hne Ht. induction Hnd as [|a ids Ha Hnd IH]; [destruct Hin|]. cbn [map]. rewrite !Rsum_cons.
  destruct Hin as [->|Hin].
  - rewrite Ht. assert (E : map f ids = map g ids).
    { apply map_ext_in. intros b Hb. apply Hne. intros ->. auto. }
    rewrite E. lra.
  - rewrite IH by auto. rewrite Hne by (intros ->; auto). lra.
Qed.

Definition look {A} (out : list (Z * list A)) (id : Z) : list A := with_id id (particles_of out).

Lemma look_cons A t (ps : list A) o id : look ((t, ps) :: o) id = (if Z.eqb t id then ps else []) ++ look o id.
Proof.
  unfold look, with_id, particles_of. cbn [flat_map]. rewrite filter_app, map_app. f_equal.
  induction ps as [|p ps IH]; [destruct (Z.eqb t id); auto|]. cbn [map filter fst].
  destruct (Z.eqb t id); cbn [map snd]; rewrite IH; auto.
Qed.

Lemma look_none A (o : list (Z * list A)) id : (forall g, In g o -> fst g <> id) -> look o id = [].
Proof.
  induction o as [|[t ps] o IH]; intros H; auto. rewrite look_cons, IH by (intros; apply H; right; auto).
  pose proof (H _ (or_introl eq_refl)) as Ht. cbn in Ht. apply Z.eqb_neq in Ht. rewrite Ht. auto.
Qed.

Section Merge.
Context (sort : sorter) (km : assignment RN) (tau : R).
Hypothesis Hsort : sort_ok sort.
Hypothesis Hkm : km_ok km.
Let M := minv (mom_dist tau) zero_mom.

Lemma set_norm_RN P : Forall physical P -> set_norm (N := RN) tau P = M P [].
Proof.
  intros HP. unfold M. rewrite minv_nil. unfold set_norm. rewrite nsum_RN. f_equal.
  apply map_ext_in. intros p Hp. rewrite Forall_forall in HP. apply pt_norm_RN; auto.
Qed.

Lemma M_sym P Q : M P Q = M Q P.
Proof. apply mp_minv, mp_sym; [apply mom_sym|apply minv_spec]. Qed.

Lemma M_nil : M [] [] = 0.
Proof. unfold M. rewrite minv_nil. apply Rsum_nil. Qed.

Definition phys_out (o : list (Z * list (FourVector RN))) : Prop := Forall (fun g => Forall physical (snd g)) o.

(** One side empty. *)
Lemma rest_RN ids o : NoDup ids -> (forall g, In g o -> In (fst g) ids) ->
  StronglySorted (@desc RN) o -> phys_out o ->
  nsum (N := RN) (map (fun g => set_norm (N := RN) tau (snd g)) o) = Rsum (map (fun id => M (look o id) []) ids).
Proof.
  intros Hnd. induction o as [|[t ps] o IH]; intros Hids Hs Hp; rewrite nsum_RN in *; cbn [map].
  - rn. rewrite Rsum_nil. symmetry.
    rewrite (@Rsum_map_ext _ _ (fun _ => 0)); [rewrite Rsum_map_const; lra|]. intros id _. apply M_nil.
  - inversion Hs as [|? ? Hs1 Hs2]; inversion Hp as [|? ? Hp1 Hp2]; subst. cbn [snd] in *. rn. rewrite Rsum_cons.
    rewrite IH by (auto; intros; apply Hids; right; auto). symmetry. apply Rsum_delta with (t := t); auto.
    + apply (Hids _ (or_introl eq_refl)).
    + intros id Hid. rewrite look_cons. apply Z.eqb_neq in Hid. rewrite Z.eqb_sym in Hid. rewrite Hid. auto.
    + rewrite look_cons, Z.eqb_refl. assert (E : look o t = []).
      { apply look_none. intros g Hg. rewrite Forall_forall in Hs2. specialize (Hs2 _ Hg). unfold desc in Hs2. cbn in Hs2. lia. }
      rewrite E, app_nil_r, set_norm_RN, M_nil by auto. lra.
Qed.

Lemma merge_RN ids : NoDup ids -> forall o1 o2 dist,
  (forall g, In g o1 -> In (fst g) ids) -> (forall g, In g o2 -> In (fst g) ids) ->
  StronglySorted (@desc RN) o1 -> StronglySorted (@desc RN) o2 -> phys_out o1 -> phys_out o2 ->
  merge_loop (N := RN) sort km tau dist o1 o2
  = Some (dist + Rsum (map (fun id => M (look o1 id) (look o2 id)) ids)).
Proof.
  intros Hnd. induction o1 as [|[t1 p1] r1 IH1]; intros o2 dist Hi1 Hi2 Hs1 Hs2 Hp1 Hp2.
  - assert (E : Rsum (map (fun id => M (look [] id) (look o2 id)) ids)
      = nsum (N := RN) (map (fun g => set_norm (N := RN) tau (snd g)) o2)).
    { rewrite (@rest_RN ids) by auto. apply Rsum_map_ext. intros id _. apply M_sym. }
    rewrite E. destruct o2; cbn [merge_loop]; auto. cbn [map]. rewrite nsum_RN. rn. rewrite Rsum_nil. f_equal. lra.
  - revert dist. induction o2 as [|[t2 p2] r2 IH2]; intros dist.
    + cbn [merge_loop]. rewrite (@rest_RN ids) by auto. reflexivity.
    + inversion Hs1 as [|? ? S1 S1']; inversion Hs2 as [|? ? S2 S2']; subst.
      inversion Hp1 as [|? ? P1 P1']; inversion Hp2 as [|? ? P2 P2']; subst. cbn [snd] in *.
      assert (I1 : forall g, In g r1 -> In (fst g) ids) by (intros; apply Hi1; right; auto).
      assert (I2 : forall g, In g r2 -> In (fst g) ids) by (intros; apply Hi2; right; auto).
      pose proof (Hi1 _ (or_introl eq_refl)) as T1. pose proof (Hi2 _ (or_introl eq_refl)) as T2. cbn [fst] in T1, T2.
      rewrite Forall_forall in S1', S2'. unfold desc in S1', S2'. cbn [fst] in S1', S2'.
      assert (N1 : look r1 t1 = []) by (apply look_none; intros g Hg; specialize (S1' _ Hg); lia).
      assert (N2 : look r2 t2 = []) by (apply look_none; intros g Hg; specialize (S2' _ Hg); lia).
      cbn [merge_loop] in *. destruct (Z.compare_spec t1 t2) as [->|Hlt|Hgt].
      * rewrite set_RN by auto. fold M. rewrite IH1 by auto. f_equal. rn. cbn [nadd RN]. rewrite Rplus_assoc. f_equal.
        symmetry. apply Rsum_delta with (t := t2); auto.
        -- intros id Hid. rewrite !look_cons. apply Z.eqb_neq in Hid. rewrite Z.eqb_sym in Hid. rewrite Hid. auto.
        -- rewrite !look_cons, Z.eqb_refl, N1, N2, !app_nil_r, M_nil. lra.
      * assert (IH2' := IH2 I2 S2 P2'). clear IH2. rewrite IH2'. f_equal. cbn [nadd RN]. rn. rewrite Rplus_assoc. f_equal.
        assert (N3 : look ((t1, p1) :: r1) t2 = []).
        { apply look_none. intros g [<-|Hg]; cbn [fst]; [lia|]. specialize (S1' _ Hg). lia. }
        symmetry. apply Rsum_delta with (t := t2); auto.
        -- intros id Hid. rewrite (look_cons t2). apply Z.eqb_neq in Hid. rewrite Z.eqb_sym in Hid. rewrite Hid. auto.
        -- rewrite (look_cons t2), Z.eqb_refl, N2, N3, app_nil_r, M_nil, set_norm_RN by auto. rewrite (M_sym [] p2). lra.
      * rewrite IH1 by auto. f_equal. cbn [nadd RN]. rn. rewrite Rplus_assoc. f_equal.
        assert (N3 : look ((t2, p2) :: r2) t1 = []).
        { apply look_none. intros g [<-|Hg]; cbn [fst]; [lia|]. specialize (S2' _ Hg). lia. }
        symmetry. apply Rsum_delta with (t := t1); auto.
        -- intros id Hid. rewrite (look_cons t1). apply Z.eqb_neq in Hid. rewrite Z.eqb_sym in Hid. rewrite Hid. auto.
        -- rewrite (look_cons t1), Z.eqb_refl, N1, N3, app_nil_r, M_nil, set_norm_RN by auto. lra.
Qed.

(** Events built from particles. *)

Lemma built_facts mw ps (ws : list R) : phys ps ->
  let ev := build sort (made (N := RN) mw ps ws) in
  StronglySorted (@desc RN) (ev_out ev) /\ phys_out (ev_out ev) /\
  (forall g, In g (ev_out ev) -> In (fst g) (map fst ps)) /\
  (forall id, Permutation (look (ev_out ev) id) (with_id id ps)).
Proof.
  intros Hp ev. destruct (@made_build RN (fun _ => True) sort mw ps ws RN_cmp Hsort) as (_ & _ & [G1 G2] & G3).
  { apply Forall_forall. intros x _. repeat constructor. }
  fold ev in G1, G2, G3. split; [exact G1|]. rewrite Forall_forall in G2. split; [|split].
  - apply Forall_forall. intros [id qs] Hg. apply Forall_forall. intros q Hq. cbn in Hq.
    assert (Hin : In (id, q) (particles_of (ev_out ev))).
    { unfold particles_of. apply in_flat_map. exists (id, qs). split; auto. apply in_map; auto. }
    apply (Permutation_in _ (Permutation_sym G3)) in Hin. unfold phys in Hp. rewrite Forall_forall in Hp.
    apply (Hp _ Hin).
  - intros [id qs] Hg. destruct (G2 _ Hg) as [Hne _]. cbn in *. destruct qs as [|q qs]; [congruence|].
    assert (Hin : In (id, q) (particles_of (ev_out ev))).
    { unfold particles_of. apply in_flat_map. exists (id, q :: qs). split; auto. left; auto. }
    apply (Permutation_in _ (Permutation_sym G3)) in Hin. apply (in_map fst) in Hin. auto.
  - intros id. apply with_id_perm. symmetry. exact G3.
Qed.

Lemma distance_RN mw mw' ps ps' (ws ws' : list R) ids : phys ps -> phys ps' -> NoDup ids ->
  (forall id, In id (map fst ps) \/ In id (map fst ps') -> In id ids) ->
  distance (N := RN) sort km tau (build sort (made (N := RN) mw ps ws)) (build sort (made (N := RN) mw' ps' ws'))
  = Some (Rsum (map (fun id => M (with_id id ps) (with_id id ps')) ids)).
Proof.
  intros Hp Hp' Hnd Hids.
  destruct (built_facts mw ws Hp) as (A1 & A2 & A3 & A4).
  destruct (built_facts mw' ws' Hp') as (B1 & B2 & B3 & B4).
  unfold distance. rewrite (@merge_RN ids) by auto. f_equal. cbn [n0 RN]. rewrite Rplus_0_l.
  apply Rsum_map_ext. intros id _. unfold M. apply minv_perm; auto.
Qed.

End Merge.

(** *** A correct assignment algorithm exists *)
Definition km_brute : assignment RN := fun n w =>
  let value s := Rsum (map (fun ij => w (fst ij) (snd ij)) (combine (seq 0 n) s)) in
  fold_right Rmax (value (seq 0 n)) (map value (perms (seq 0 n))).

Lemma fold_max x l : (fold_right Rmax x l = x \/ In (fold_right Rmax x l) l) /\
  forall y, y = x \/ In y l -> y <= fold_right Rmax x l.
Proof.
  induction l as [|a l [IH1 IH2]]; cbn.
  - split; auto. intros y [->|[]]. lra.
  - set (m := fold_right Rmax x l) in *.
    destruct (Rle_dec a m) as [Hle|Hgt]; [rewrite (Rmax_right a m) by lra|rewrite (Rmax_left a m) by lra]; split; auto.
    + tauto.
    + intros y [->|[<-|H]]; auto.
    + intros y [->|[<-|H]]; [specialize (IH2 x (or_introl eq_refl)); lra|lra|specialize (IH2 y (or_intror H)); lra].
Qed.

Lemma km_brute_ok : km_ok km_brute.
Proof.
  intros n w. unfold km_brute.
  set (value := fun s => Rsum (map (fun ij => w (fst ij) (snd ij)) (combine (seq 0 n) s))).
  destruct (fold_max (value (seq 0 n)) (map value (perms (seq 0 n)))) as [H1 H2]. split.
  - destruct H1 as [H1|H1].
    + exists (seq 0 n). split; auto.
    + apply in_map_iff in H1. destruct H1 as (s & H1 & H3). exists s. split; [apply perms_sound; auto|]. symmetry. exact H1.
  - intros s Hs. apply (H2 (value s)). right. apply in_map, perms_complete, Hs.
Qed.
