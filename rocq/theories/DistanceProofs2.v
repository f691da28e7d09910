(** Consequences for [PropsDistance]: the metric properties, and binary64. *)
From Coq Require Import Reals ZArith Lra SpecFloat.
From Verif Require Import Base BaseProofs Num ModelEvent ModelDistance SpecWeights SpecEvent SpecDistance
  SumProofs CellProofs EventProofs PermProofs PairingProofs DistanceProofs.
Set Implicit Arguments.
Unset Strict Implicit.

(** *** binary64: momenta that compare equal are at equal distances *)
Definition zeq (x y : spec_float) : Prop :=
  x = y \/ (exists s s', x = S754_zero s /\ y = S754_zero s').

Lemma SFeqb_zeq x y : SFeqb x y = true -> zeq x y.
Proof.
  unfold SFeqb, SFcompare, zeq.
  destruct x as [sx|[]| |[] mx ex]; destruct y as [sy|[]| |[] my ey]; try discriminate; eauto;
    try (intros H; right; eauto; fail);
    destruct (Z.compare_spec ex ey) as [He|He|He]; try discriminate; subst;
    change (Pos.compare_cont Eq mx my) with (Pos.compare mx my);
    destruct (Pos.compare_spec mx my) as [Hm|Hm|Hm]; cbn; try discriminate; subst; auto.
Qed.

Lemma zeq_sub x y q : zeq x y -> zeq (nsub (n := B64) x q) (nsub (n := B64) y q).
Proof.
  intros [->|(s & s' & -> & ->)]; [left; auto|]. cbn [nsub B64]. unfold zeq.
  destruct q as [t|t| |t m e]; cbn; auto. right.
  exists (if eqb s (negb t) then s else false), (if eqb s' (negb t) then s' else false). split; destruct s, s', t; auto.
Qed.

Lemma zeq_mul t x y : zeq x y -> zeq (nmul (n := B64) t x) (nmul (n := B64) t y).
Proof.
  intros [->|(s & s' & -> & ->)]; [left; auto|]. cbn [nmul B64]. unfold zeq. destruct t as [t|t| |t m e]; cbn; eauto.
Qed.

Lemma zeq_sq x y : zeq x y -> nmul (n := B64) x x = nmul (n := B64) y y.
Proof.
  intros [->|(s & s' & -> & ->)]; auto. cbn. destruct s, s'; reflexivity.
Qed.

Lemma pt_dist_cong (p p' q : FourVector B64) tau : mom_eqv p p' -> pt_dist p q tau = pt_dist p' q tau.
Proof.
  destruct p, p'. unfold mom_eqv, coords. cbn [ModelEvent.fv_pt ModelEvent.fv_e ModelEvent.fv_x ModelEvent.fv_y ModelEvent.fv_z].
  intros H. repeat match goal with H : Forall2 _ (_ :: _) _ |- _ => inversion H; clear H; subst end.
  repeat match goal with H : neqb _ _ = true |- _ => apply SFeqb_zeq in H end.
  unfold pt_dist, pt_dist_sq, spatial_norm_sq, fv_sub, update_pt.
  cbn [ModelEvent.fv_pt ModelEvent.fv_e ModelEvent.fv_x ModelEvent.fv_y ModelEvent.fv_z].
  f_equal. f_equal; [|apply zeq_sq, zeq_mul, zeq_sub; assumption].
  f_equal. f_equal; [apply zeq_sq, zeq_sub; assumption|]. f_equal; [apply zeq_sq, zeq_sub; assumption|].
  f_equal. apply zeq_sq, zeq_sub; assumption.
Qed.

Lemma enumeration_B64 sort tau (P Q : list (FourVector B64)) : sort_ok sort ->
  Forall (mom_in not_nan) P ->
  (forall m, Permutation P m -> not_nan (paired_distance tau m Q)) ->
  exists r, min_paired_distance_naive tau (sort _ (@fv_leb B64) P) Q = Some r /\
    (exists m, Permutation P m /\ r = paired_distance tau m Q) /\
    forall m, Permutation P m -> nleb r (paired_distance tau m Q) = true.
Proof.
  intros Hs HP Hn.
  destruct (Hs _ (@fv_leb B64) P) as [Hp Ho].
  { apply (fv_preorder B64_cmp). rewrite Forall_forall in HP. auto. }
  set (l0 := sort _ (@fv_leb B64) P) in *.
  assert (Hl0 : forall p, In p l0 -> mom_in not_nan p).
  { intros p Hin. rewrite Forall_forall in HP. apply HP. eapply Permutation_in; [symmetry; exact Hp|auto]. }
  destruct (@enumeration B64 not_nan tau l0 Q B64_cmp) as (r & E & (m & Hm & Em) & Hall); auto.
  - apply (fv_preorder B64_cmp). auto.
  - intros m Hm. apply Hn. etransitivity; eauto.
  - intros p p' q H1 H2 _ [H3 H4]. apply pt_dist_cong. eapply (fv_eqv_spec B64_cmp); auto.
  - exists r. split; auto. split.
    + exists m. split; auto. etransitivity; eauto.
    + intros m' Hm'. apply Hall. etransitivity; [symmetry; exact Hp|auto].
Qed.

(** *** Reals *)
Local Open Scope R_scope.

Lemma naive_hungarian sort (km : assignment RN) tau (P Q : list (FourVector RN)) : sort_ok sort -> km_ok km ->
  Forall physical P -> Forall physical Q -> length P = length Q ->
  exists v, min_paired_distance_naive (N := RN) tau (sort _ (@fv_leb RN) P) Q = Some v /\
            min_paired_distance_hungarian (N := RN) km tau (sort _ (@fv_leb RN) P) Q = Some v.
Proof.
  intros Hs Hkm HP HQ E. destruct (Hs _ (@fv_leb RN) P (fv_pre_RN _)) as [Hp Ho].
  assert (HP' : Forall physical (sort _ (@fv_leb RN) P)) by (eapply Permutation_Forall; eauto).
  assert (E' : length (sort _ (@fv_leb RN) P) = length Q) by (rewrite <- (Permutation_length Hp); auto).
  destruct (@naive_RN tau _ Q HP' HQ E' Ho) as (v & H1 & H2).
  destruct (@km_min_RN km tau _ Q Hkm HP' HQ E') as (v' & H3 & H4).
  exists v. split; auto. rewrite H3. f_equal. eapply ismin_unique; eauto.
Qed.

Section Metric.
Context (sort : sorter) (km : assignment RN) (tau : R) (mw : bool).
Hypothesis Hsort : sort_ok sort.
Hypothesis Hkm : km_ok km.
Let M := minv (mom_dist tau) zero_mom.
Let dist ps ws ps' ws' :=
  distance (N := RN) sort km tau (build sort (made (N := RN) mw ps ws)) (build sort (made (N := RN) mw ps' ws')).

Lemma documented ps ps' (ws ws' : list R) ids : phys ps -> phys ps' -> NoDup ids ->
  (forall id, In id (map fst ps) \/ In id (map fst ps') -> In id ids) ->
  exists f, (forall id, min_pairing tau (with_id id ps) (with_id id ps') (f id)) /\
    dist ps ws ps' ws' = Some (Rsum (map f ids)).
Proof.
  intros Hp Hp' Hnd Hids. exists (fun id => M (with_id id ps) (with_id id ps')). split.
  - intros id. apply min_pairing_mp. apply minv_spec.
  - apply distance_RN; auto.
Qed.

Lemma metric ps1 ps2 ps3 (ws1 ws2 ws3 : list R) : phys ps1 -> phys ps2 -> phys ps3 ->
  exists d12 d23 d13,
    dist ps1 ws1 ps2 ws2 = Some d12 /\ dist ps2 ws2 ps3 ws3 = Some d23 /\ dist ps1 ws1 ps3 ws3 = Some d13 /\
    0 <= d12 /\ dist ps1 ws1 ps1 ws1 = Some 0 /\ dist ps2 ws2 ps1 ws1 = Some d12 /\ d13 <= d12 + d23.
Proof.
  intros H1 H2 H3. set (ids := nodup Z.eq_dec (map fst ps1 ++ map fst ps2 ++ map fst ps3)).
  assert (Hnd : NoDup ids) by apply NoDup_nodup.
  assert (Hin : forall id, In id (map fst ps1) \/ In id (map fst ps2) \/ In id (map fst ps3) -> In id ids).
  { intros id H. apply nodup_In. rewrite !in_app_iff. tauto. }
  unfold dist. rewrite !(@distance_RN sort km tau Hsort Hkm _ _ _ _ _ _ ids); auto;
    try (intros id [Hi|Hi]; apply Hin; tauto).
  do 3 eexists. split; [reflexivity|]. split; [reflexivity|]. split; [reflexivity|]. split; [|split; [|split]].
  - apply Rsum_nonneg. intros x Hx. apply in_map_iff in Hx. destruct Hx as (id & <- & _).
    eapply mp_nonneg; [apply mom_nonneg|apply minv_spec].
  - f_equal. rewrite (@Rsum_map_ext _ _ (fun _ => 0)); [rewrite Rsum_map_const; lra|]. intros id _.
    eapply mp_self; [apply mom_nonneg|apply mom_refl|apply minv_spec].
  - apply (f_equal Some). apply Rsum_map_ext. intros id _. apply mp_minv, mp_sym; [apply mom_sym|apply minv_spec].
  - rewrite <- Rsum_map_plus. apply Rsum_map_le. intros id _.
    eapply mp_tri; try apply minv_spec; [apply mom_nonneg|apply mom_refl|apply mom_tri].
Qed.

(** Only the ids and the spatial components matter. *)
Definition xyz_dist (a b : R * R * R) : R :=
  let '(x, y, z) := a in let '(x', y', z') := b in
  sqrt ((x - x') ^ 2 + (y - y') ^ 2 + (z - z') ^ 2 + tau ^ 2 * (sqrt (x * x + y * y) - sqrt (x' * x' + y' * y')) ^ 2).

Lemma mom_xyz p q : mom_dist tau p q = xyz_dist (xyz p) (xyz q).
Proof. reflexivity. Qed.

Lemma with_id_spatial id ps : map xyz (with_id id ps) = with_id id (map spatial ps).
Proof.
  unfold with_id. induction ps as [|[i p] ps IH]; auto. cbn [map filter spatial fst snd].
  destruct (Z.eqb i id); cbn [map snd]; rewrite IH; auto.
Qed.

Lemma spatial_only ps1 ps1' ps2 ps2' (ws1 ws1' ws2 ws2' : list R) : phys ps1 -> phys ps1' -> phys ps2 -> phys ps2' ->
  Permutation (map spatial ps1) (map spatial ps1') -> Permutation (map spatial ps2) (map spatial ps2') ->
  dist ps1 ws1 ps2 ws2 = dist ps1' ws1' ps2' ws2'.
Proof.
  intros H1 H1' H2 H2' P1 P2. set (ids := nodup Z.eq_dec (map fst ps1 ++ map fst ps2)).
  assert (Hnd : NoDup ids) by apply NoDup_nodup.
  assert (Hfst : forall ps ps', Permutation (map spatial ps) (map spatial ps') -> Permutation (map fst ps') (map fst ps)).
  { intros ps ps' H. apply (Permutation_map fst) in H. rewrite !map_map in H. cbn in H. symmetry; auto. }
  unfold dist. rewrite !(@distance_RN sort km tau Hsort Hkm _ _ _ _ _ _ ids); auto.
  - apply (f_equal Some). apply Rsum_map_ext. intros id _. 
    rewrite !(@minv_image _ _ xyz (mom_dist tau) xyz_dist zero_mom (0, 0, 0)) by auto.
    apply minv_perm; rewrite !with_id_spatial; apply with_id_perm; auto.
  - intros id H. apply nodup_In. apply in_app_iff. destruct H as [H|H]; [left|right];
      (eapply Permutation_in; [|exact H]; apply Hfst; auto).
  - intros id H. apply nodup_In. apply in_app_iff. auto.
Qed.

End Metric.

(** *** Distance zero *)
Lemma mom_zero tau p q : mom_dist tau p q = 0 <-> xyz p = xyz q.
Proof.
  split.
  - unfold mom_dist, xyz. intros H. apply sqrt_eq_0 in H.
    + pose proof (pow2_ge_0 (fv_x p - fv_x q)). pose proof (pow2_ge_0 (fv_y p - fv_y q)).
      pose proof (pow2_ge_0 (fv_z p - fv_z q)). pose proof (pow2_ge_0 (tau * (pt_of p - pt_of q))).
      rewrite Rpow_mult_distr in *.
      assert (E : forall x : R, x ^ 2 = 0 -> x = 0) by (intros x Hx; nra).
      assert (Ex : fv_x p - fv_x q = 0) by (apply E; lra).
      assert (Ey : fv_y p - fv_y q = 0) by (apply E; lra).
      assert (Ez : fv_z p - fv_z q = 0) by (apply E; lra).
      apply Rminus_diag_uniq in Ex, Ey, Ez. rewrite Ex, Ey, Ez. auto.
    + pose proof (pow2_ge_0 (fv_x p - fv_x q)). pose proof (pow2_ge_0 (fv_y p - fv_y q)).
      pose proof (pow2_ge_0 (fv_z p - fv_z q)). pose proof (pow2_ge_0 (tau * (pt_of p - pt_of q))).
      rewrite Rpow_mult_distr in *. lra.
  - intros H. rewrite mom_xyz, <- H, <- mom_xyz. apply mom_refl.
Qed.

Lemma cost_zero tau L : cost (mom_dist tau) L = 0 <-> map xyz (map fst L) = map xyz (map snd L).
Proof.
  induction L as [|[p q] L IH].
  - rewrite cost_nil. cbn. tauto.
  - rewrite cost_cons. cbn [map fst snd]. pose proof (mom_nonneg tau p q). pose proof (@cost_nonneg _ (mom_dist tau) (@mom_nonneg tau) L).
    split.
    + intros E. f_equal; [apply (mom_zero tau); lra|apply IH; lra].
    + intros E. injection E as E1 E2 E3 E4. apply IH in E4. rewrite E4.
      assert (E5 : mom_dist tau p q = 0) by (apply mom_zero; unfold xyz; congruence). rewrite E5. lra.
Qed.

Lemma mp_zero tau P Q : let n := Nat.max (length P) (length Q) in
  minv (mom_dist tau) zero_mom P Q = 0 <-> Permutation (map xyz (filled n P)) (map xyz (filled n Q)).
Proof.
  intros n. pose proof (minv_spec (mom_dist tau) zero_mom P Q) as Hm. unfold mp in Hm. fold n in Hm. split.
  - intros E. rewrite E in Hm. destruct Hm as [(L & [H1 H2] & EL) _]. symmetry in EL. apply cost_zero in EL.
    change (filled n P) with (fil zero_mom n P). change (filled n Q) with (fil zero_mom n Q).
    rewrite <- H1, <- H2, EL. auto.
  - intros H. apply Rle_antisym; [|eapply mp_nonneg; [apply mom_nonneg|apply minv_spec]].
    symmetry in H. apply Permutation_map_inv in H. destruct H as (P' & E & HP').
    assert (Hlen : length (fil zero_mom n P) = length (fil zero_mom n Q)) by (rewrite !fil_len; lia).
    destruct Hm as [_ Hm]. specialize (Hm _ (@combine_pairing _ (fil zero_mom n P) (fil zero_mom n Q) P' Hlen HP')).
    assert (Hl : length P' = length (fil zero_mom n Q)) by (rewrite <- (Permutation_length HP'); exact Hlen).
    assert (E0 : cost (mom_dist tau) (combine P' (fil zero_mom n Q)) = 0).
    { apply cost_zero. rewrite map_fst_combine, map_snd_combine by auto. symmetry. exact E. }
    lra.
Qed.

Lemma Rsum_zero l : (forall x, In x l -> 0 <= x) -> Rsum l = 0 <-> Forall (fun x => x = 0) l.
Proof.
  induction l as [|a l IH]; intros H.
  - rewrite Rsum_nil. split; auto.
  - rewrite Rsum_cons. pose proof (H a (or_introl eq_refl)).
    assert (Hl : forall x, In x l -> 0 <= x) by (intros; apply H; right; auto).
    pose proof (Rsum_nonneg _ Hl). specialize (IH Hl). split.
    + intros E. constructor; [lra|]. apply IH. lra.
    + intros E. inversion E as [|? ? E1 E2]; subst. apply IH in E2. lra.
Qed.

Lemma distance_zero sort (km : assignment RN) tau mw ps ps' (ws ws' : list R) : sort_ok sort -> km_ok km ->
  phys ps -> phys ps' ->
  distance (N := RN) sort km tau (build sort (made (N := RN) mw ps ws)) (build sort (made (N := RN) mw ps' ws')) = Some 0
  <-> forall id, let P := with_id id ps in let Q := with_id id ps' in
        let n := Nat.max (length P) (length Q) in
        Permutation (map xyz (filled n P)) (map xyz (filled n Q)).
Proof.
  intros Hs Hkm Hp Hp'. set (ids := nodup Z.eq_dec (map fst ps ++ map fst ps')).
  rewrite (@distance_RN sort km tau Hs Hkm _ _ _ _ _ _ ids); auto.
  3:{ intros id H. apply nodup_In. apply in_app_iff. auto. }
  2:{ apply NoDup_nodup. }
  set (f := fun id => minv (mom_dist tau) zero_mom (with_id id ps) (with_id id ps')).
  assert (Hnn : forall x, In x (map f ids) -> 0 <= x).
  { intros x Hx. apply in_map_iff in Hx. destruct Hx as (id & <- & _).
    eapply mp_nonneg; [apply mom_nonneg|apply minv_spec]. }
  split.
  - intros E id. injection E as E. apply (Rsum_zero Hnn) in E. rewrite Forall_forall in E. cbv zeta.
    destruct (in_dec Z.eq_dec id ids) as [Hi|Hi].
    + apply (mp_zero tau). apply E. apply (in_map f _ _ Hi).
    + assert (H0 : forall qs : list (Z * FourVector RN), ~ In id (map fst qs) -> with_id id qs = []).
      { clear. intros qs. unfold with_id. induction qs as [|[i q] qs IH]; cbn; auto. intros H.
        destruct (Z.eqb_spec i id); [tauto|]. apply IH. tauto. }
      unfold ids in Hi. rewrite nodup_In, in_app_iff in Hi. rewrite !H0 by tauto. auto.
  - intros H. apply (f_equal Some). apply (Rsum_zero Hnn). apply Forall_forall. intros x Hx.
    apply in_map_iff in Hx. destruct Hx as (id & <- & _). apply (mp_zero tau). apply H.
Qed.
