(** Lemmas about units, axes and small changes of momenta. *)
From Coq Require Import Reals ZArith Lra Lia.
From Verif Require Import Base BaseProofs Num ModelEvent ModelDistance ModelCell ModelSeeds ModelNaive ModelVPTree ModelResampler SpecWeights SpecEvent SpecDistance SpecSearch SpecTree SpecOrder SpecSymmetry
  SumProofs EventProofs PermProofs PairingProofs DistanceProofs DistanceProofs2 VPTreeProofs2.
From Coq Require Import List.
Import ListNotations.
Local Open Scope R_scope.

(** *** Units and axes *)
Section Axes.
Context (lam tau : R) (m : axes).
Hypothesis Hlam : 0 < lam.
Hypothesis Hm : orthonormal m.
Hypothesis Hb : tau = 0 \/ keeps_beam m.

Lemma seen_physical p : physical (seen lam m p).
Proof. reflexivity. Qed.
Lemma seen_zero : seen lam m zero_mom = zero_mom.
Proof.
  unfold seen, zero_mom, fv_from, update_pt. cbn. rewrite !Rmult_0_r, !Rplus_0_r, !Rmult_0_r, !Rplus_0_r, sqrt_0. reflexivity.
Qed.
Lemma sqrt_scale r : 0 <= r -> sqrt (lam ^ 2 * r) = lam * sqrt r.
Proof. intros Hr. rewrite sqrt_mult; [|apply pow2_ge_0|exact Hr]. rewrite sqrt_pow2 by lra. reflexivity. Qed.
Lemma seen_pt p : keeps_beam m -> pt_of (seen lam m p) = lam * pt_of p.
Proof.
  intros (B1 & B2 & B3 & B4). destruct Hm as (O1 & O2 & O3 & O4 & O5 & O6). unfold pt_of. rewrite <- sqrt_scale.
  - f_equal. unfold seen, fv_from, update_pt. cbn [fv_x fv_y]. cbn [nmul nadd RN]. rewrite B1, B2. rewrite B3 in *. rewrite B4 in *.
    transitivity (lam ^ 2 * ((a_xx m ^ 2 + a_yx m ^ 2 + 0 ^ 2) * (fv_x p * fv_x p) + (a_xy m ^ 2 + a_yy m ^ 2 + 0 ^ 2) * (fv_y p * fv_y p) + 2 * (a_xx m * a_xy m + a_yx m * a_yy m + 0 * 0) * (fv_x p * fv_y p))).
    + ring.
    + rewrite O1, O2, O4. ring.
  - pose proof (Rle_0_sqr (fv_x p)) as H1. pose proof (Rle_0_sqr (fv_y p)) as H2. unfold Rsqr in *. lra.
Qed.
Lemma seen_dist p q : mom_dist tau (seen lam m p) (seen lam m q) = lam * mom_dist tau p q.
Proof.
  assert (E : tau ^ 2 * (pt_of (seen lam m p) - pt_of (seen lam m q)) ^ 2 = lam ^ 2 * (tau ^ 2 * (pt_of p - pt_of q) ^ 2)).
  { destruct Hb as [ -> | H]; [ring|]. rewrite !seen_pt by exact H. ring. }
  unfold mom_dist. rewrite E, <- sqrt_scale.
  - f_equal. destruct Hm as (O1 & O2 & O3 & O4 & O5 & O6). unfold seen, fv_from, update_pt. cbn [fv_x fv_y fv_z].
    set (dx := fv_x p - fv_x q). set (dy := fv_y p - fv_y q). set (dz := fv_z p - fv_z q). set (t := tau ^ 2 * (pt_of p - pt_of q) ^ 2).
    transitivity (lam ^ 2 * ((a_xx m ^ 2 + a_yx m ^ 2 + a_zx m ^ 2) * dx ^ 2 + (a_xy m ^ 2 + a_yy m ^ 2 + a_zy m ^ 2) * dy ^ 2 + (a_xz m ^ 2 + a_yz m ^ 2 + a_zz m ^ 2) * dz ^ 2
      + 2 * (a_xx m * a_xy m + a_yx m * a_yy m + a_zx m * a_zy m) * (dx * dy) + 2 * (a_xx m * a_xz m + a_yx m * a_yz m + a_zx m * a_zz m) * (dx * dz)
      + 2 * (a_xy m * a_xz m + a_yy m * a_yz m + a_zy m * a_zz m) * (dy * dz) + t)).
    + unfold dx, dy, dz. ring.
    + rewrite O1, O2, O3, O4, O5, O6. ring.
  - pose proof (pow2_ge_0 (fv_x p - fv_x q)). pose proof (pow2_ge_0 (fv_y p - fv_y q)). pose proof (pow2_ge_0 (fv_z p - fv_z q)).
    pose proof (Rmult_le_pos _ _ (pow2_ge_0 tau) (pow2_ge_0 (pt_of p - pt_of q))). lra.
Qed.
Lemma seen_filled n P : filled n (map (seen lam m) P) = map (seen lam m) (filled n P).
Proof.
  unfold filled. rewrite map_app, map_length. f_equal. generalize (n - length P)%nat. intros k. induction k as [|k IH]; [reflexivity|]. cbn [repeat map]. rewrite seen_zero, <- IH. reflexivity.
Qed.
Lemma seen_cost P Q : pairing_cost tau (map (seen lam m) P) (map (seen lam m) Q) = lam * pairing_cost tau P Q.
Proof.
  revert Q. induction P as [|p P IH]; intros [|q Q]; try (unfold pairing_cost; cbn [map combine]; rewrite Rsum_nil; ring).
  unfold pairing_cost in *. cbn [map combine fst snd]. rewrite !Rsum_cons, IH, seen_dist. ring.
Qed.
Lemma seen_pairing P Q d : min_pairing tau P Q d -> min_pairing tau (map (seen lam m) P) (map (seen lam m) Q) (lam * d).
Proof.
  unfold min_pairing. rewrite !map_length. cbv zeta. set (n := Nat.max (length P) (length Q)). rewrite !seen_filled. intros [(P' & H1 & ->) H2]. split.
  - exists (map (seen lam m) P'). split; [apply Permutation_map; exact H1|]. symmetry. apply seen_cost.
  - intros P'' H. apply Permutation_sym, Permutation_map_inv in H as (P3 & -> & H). rewrite seen_cost. apply Rmult_le_compat_l; [lra|]. apply H2. exact H.
Qed.
Lemma seen_with_id id ps : with_id id (all_seen lam m ps) = map (seen lam m) (with_id id ps).
Proof.
  unfold with_id, all_seen. induction ps as [|[i p] ps IH]; [reflexivity|]. cbn [map filter fst snd]. destruct (Z.eqb i id); cbn [map snd]; rewrite IH; reflexivity.
Qed.
Lemma seen_phys ps : phys (all_seen lam m ps).
Proof. unfold phys, all_seen. apply Forall_forall. intros x Hx. apply in_map_iff in Hx as (y & <- & _). reflexivity. Qed.
Lemma seen_fst ps : map fst (all_seen lam m ps) = map fst ps.
Proof. unfold all_seen. rewrite map_map. reflexivity. Qed.
End Axes.

Lemma Rsum_scale {A} (c : R) (f : A -> R) l : Rsum (map (fun x => c * f x) l) = c * Rsum (map f l).
Proof. induction l as [|a l IH]; cbn [map]; [rewrite Rsum_nil; ring|]. rewrite !Rsum_cons, IH. ring. Qed.

Section Dist.
Context (sort : sorter) (km : assignment RN) (tau : R) (mw : bool).
Hypothesis Hs : sort_ok sort.
Hypothesis Hkm : km_ok km.
Definition ev_of (ps : list (Z * FourVector RN)) (ws : list R) : Event RN := build sort (made (N := RN) mw ps ws).

Lemma all_ids (ps1 ps2 : list (Z * FourVector RN)) : exists ids, NoDup ids /\ forall id, In id (map fst ps1) \/ In id (map fst ps2) -> In id ids.
Proof.
  exists (nodup Z.eq_dec (map fst ps1 ++ map fst ps2)). split; [apply NoDup_nodup|]. intros id H. apply nodup_In. apply in_or_app. exact H.
Qed.

Lemma seen_distance lam m ps1 ps2 ws1 ws2 ws1' ws2' : 0 < lam -> orthonormal m -> tau = 0 \/ keeps_beam m -> phys ps1 -> phys ps2 ->
  distance (N := RN) sort km tau (ev_of (all_seen lam m ps1) ws1') (ev_of (all_seen lam m ps2) ws2') = option_map (Rmult lam) (distance (N := RN) sort km tau (ev_of ps1 ws1) (ev_of ps2 ws2)).
Proof.
  intros Hl Hm Hb P1 P2. destruct (all_ids ps1 ps2) as (ids & Nd & Hids).
  destruct (@documented sort km tau mw Hs Hkm ps1 ps2 ws1 ws2 ids P1 P2 Nd Hids) as (f & F1 & F2).
  destruct (@documented sort km tau mw Hs Hkm (all_seen lam m ps1) (all_seen lam m ps2) ws1' ws2' ids (seen_phys lam m ps1) (seen_phys lam m ps2) Nd) as (g & G1 & G2).
  { intros id. rewrite !seen_fst. apply Hids. }
  unfold ev_of. rewrite F2, G2. cbn [option_map]. f_equal. rewrite <- Rsum_scale. f_equal. apply map_ext. intros id.
  specialize (G1 id). rewrite !seen_with_id in G1. pose proof (seen_pairing lam tau m Hl Hm Hb _ _ _ (F1 id)) as F.
  apply min_pairing_mp in G1. apply min_pairing_mp in F. exact (mp_unique G1 F).
Qed.

(** *** Small changes *)
Lemma same_types_id id : forall ps ps', same_types ps ps' -> length (with_id id ps) = length (with_id id ps').
Proof.
  unfold same_types, with_id. induction ps as [|[i p] ps IH]; intros [|[j q] ps'] H; cbn [map fst] in H; try discriminate; [reflexivity|].
  injection H as <- H. cbn [filter fst]. destruct (Z.eqb i id); cbn [map length]; rewrite (IH _ H); reflexivity.
Qed.
Definition moves (ps ps' : list (Z * FourVector RN)) : R := Rsum (map (fun x => mom_dist tau (snd (fst x)) (snd (snd x))) (combine ps ps')).
Lemma moves_ids ids : NoDup ids -> forall ps ps', same_types ps ps' -> (forall id, In id (map fst ps) -> In id ids) ->
  Rsum (map (fun id => pairing_cost tau (with_id id ps) (with_id id ps')) ids) = moves ps ps'.
Proof.
  intros Nd. unfold same_types, moves. induction ps as [|[i p] ps IH]; intros [|[j q] ps'] H Hin; cbn [map fst] in H; try discriminate.
  - cbn [combine map]. rewrite Rsum_nil. clear. induction ids as [|a ids IH]; cbn [map]; [apply Rsum_nil|]. rewrite Rsum_cons, IH. unfold with_id, pairing_cost. cbn. rewrite Rsum_nil. ring.
  - injection H as <- H. cbn [combine map fst snd]. rewrite Rsum_cons, <- (IH ps' H (fun id Hi => Hin id (or_intror Hi))).
    apply (@Rsum_delta _ _ i (mom_dist tau p q) ids Nd); [apply Hin; left; reflexivity| |].
    + intros id Hne. unfold with_id. cbn [filter fst]. rewrite (proj2 (Z.eqb_neq i id)) by congruence. reflexivity.
    + unfold with_id. cbn [filter fst]. rewrite Z.eqb_refl. cbn [map]. unfold pairing_cost. cbn [combine map fst snd]. rewrite Rsum_cons. ring.
Qed.
Lemma filled_all n P : length P = n -> filled n P = P.
Proof. intros <-. unfold filled. rewrite Nat.sub_diag. apply app_nil_r. Qed.
Lemma Rsum_le {A} (f g : A -> R) l : (forall x, f x <= g x) -> Rsum (map f l) <= Rsum (map g l).
Proof. intros H. induction l as [|a l IH]; cbn [map]; [lra|]. rewrite !Rsum_cons. specialize (H a). lra. Qed.

Lemma moved_distance ps ps' ws ws' : phys ps -> phys ps' -> same_types ps ps' ->
  exists d, distance (N := RN) sort km tau (ev_of ps ws) (ev_of ps' ws') = Some d /\ d <= moves ps ps'.
Proof.
  intros P1 P2 H. destruct (all_ids ps ps') as (ids & Nd & Hids).
  destruct (@documented sort km tau mw Hs Hkm ps ps' ws ws' ids P1 P2 Nd Hids) as (f & F1 & F2).
  exists (Rsum (map f ids)). split; [exact F2|]. rewrite <- (moves_ids ids Nd ps ps' H) by (intros id Hi; apply Hids; left; exact Hi).
  apply Rsum_le. intros id. destruct (F1 id) as [_ F]. pose proof (same_types_id id ps ps' H) as E. rewrite <- E, Nat.max_id in F.
  rewrite (filled_all _ (with_id id ps) eq_refl), (filled_all _ (with_id id ps')) in F by (symmetry; exact E). apply F. apply Permutation_refl.
Qed.

(** ... change distances little *)
Lemma moved_other ps ps' ps2 ws ws' ws2 : phys ps -> phys ps' -> phys ps2 -> same_types ps ps' ->
  exists d d', distance (N := RN) sort km tau (ev_of ps ws) (ev_of ps2 ws2) = Some d /\ distance (N := RN) sort km tau (ev_of ps' ws') (ev_of ps2 ws2) = Some d' /\
    Rabs (d' - d) <= moves ps ps'.
Proof.
  intros P1 P1' P2 H. destruct (moved_distance ps ps' ws ws' P1 P1' H) as (r & R1 & R2).
  destruct (@metric sort km tau mw Hs Hkm ps ps' ps2 ws ws' ws2 P1 P1' P2) as (a & b & c & A & B & C & _ & _ & A' & T). fold (ev_of ps ws) (ev_of ps' ws') (ev_of ps2 ws2) in *.
  destruct (@metric sort km tau mw Hs Hkm ps' ps ps2 ws' ws ws2 P1' P1 P2) as (a' & b' & c' & A2 & B2 & C2 & _ & _ & _ & T2). fold (ev_of ps ws) (ev_of ps' ws') (ev_of ps2 ws2) in *.
  rewrite A in R1. injection R1 as ->. rewrite A' in A2. injection A2 as <-. rewrite C in B2. injection B2 as <-. rewrite B in C2. injection C2 as <-.
  exists c, b. split; [exact C|]. split; [exact B|]. apply Rabs_le. lra.
Qed.

Lemma mom_size p q : mom_dist tau p q <= sqrt (1 + tau ^ 2) * sqrt ((fv_x p - fv_x q) ^ 2 + (fv_y p - fv_y q) ^ 2 + (fv_z p - fv_z q) ^ 2).
Proof.
  pose proof (pow2_ge_0 (fv_x p - fv_x q)) as X. pose proof (pow2_ge_0 (fv_y p - fv_y q)) as Y. pose proof (pow2_ge_0 (fv_z p - fv_z q)) as Z. pose proof (pow2_ge_0 tau) as T.
  rewrite <- sqrt_mult by lra. unfold mom_dist. apply sqrt_le_1_alt.
  assert (L : (pt_of p - pt_of q) ^ 2 <= (fv_x p - fv_x q) ^ 2 + (fv_y p - fv_y q) ^ 2).
  { unfold pt_of. set (a := fv_x p). set (b := fv_y p). set (c := fv_x q). set (d := fv_y q).
    assert (S1 : 0 <= a * a + b * b) by (pose proof (Rle_0_sqr a); pose proof (Rle_0_sqr b); unfold Rsqr in *; lra).
    assert (S2 : 0 <= c * c + d * d) by (pose proof (Rle_0_sqr c); pose proof (Rle_0_sqr d); unfold Rsqr in *; lra).
    assert (CS : a * c + b * d <= sqrt (a * a + b * b) * sqrt (c * c + d * d)).
    { rewrite <- sqrt_mult by assumption. apply Rle_trans with (Rabs (a * c + b * d)); [apply Rle_abs|]. rewrite <- sqrt_Rsqr_abs. apply sqrt_le_1_alt. unfold Rsqr.
      pose proof (Rle_0_sqr (a * d - b * c)) as H. unfold Rsqr in H. nra. }
    pose proof (sqrt_sqrt _ S1) as Q1. pose proof (sqrt_sqrt _ S2) as Q2. nra. }
  pose proof (Rmult_le_compat_l _ _ _ T L) as L2. pose proof (Rmult_le_pos _ _ T Z). lra.
Qed.
Lemma moves_shift ps ps' : moves ps ps' <= sqrt (1 + tau ^ 2) * shift ps ps'.
Proof. unfold moves, shift. rewrite <- Rsum_scale. apply Rsum_le. intros x. apply mom_size. Qed.

Definition at_rest (ps : list (Z * FourVector RN)) : list (Z * FourVector RN) := map (fun x => (fst x, zero_mom)) ps.
Lemma zero_phys : physical zero_mom.
Proof. unfold physical, pt_of, zero_mom. cbn. rewrite Rmult_0_l, Rplus_0_l, sqrt_0. reflexivity. Qed.
Lemma rest_phys ps : phys (at_rest ps).
Proof. unfold phys, at_rest. apply Forall_forall. intros x Hx. apply in_map_iff in Hx as (y & <- & _). apply zero_phys. Qed.
Lemma with_id_app {A} id (ps qs : list (Z * A)) : with_id id (ps ++ qs) = with_id id ps ++ with_id id qs.
Proof. unfold with_id. rewrite filter_app, map_app. reflexivity. Qed.
Lemma rest_with_id id ps : with_id id (at_rest ps) = repeat zero_mom (length (with_id id ps)).
Proof.
  unfold with_id, at_rest. induction ps as [|[i p] ps IH]; [reflexivity|]. cbn [map filter fst]. destruct (Z.eqb i id); cbn [map length repeat snd]; rewrite IH; reflexivity.
Qed.
Lemma rest_zero ps soft ws ws' : phys ps -> distance (N := RN) sort km tau (ev_of ps ws) (ev_of (ps ++ at_rest soft) ws') = Some 0.
Proof.
  intros P. apply (@distance_zero sort km tau mw ps (ps ++ at_rest soft) ws ws' Hs Hkm P).
  { apply Forall_app. split; [exact P|apply rest_phys]. }
  intros id. cbv zeta. rewrite with_id_app, rest_with_id. set (P' := with_id id ps). set (k := length (with_id id soft)).
  rewrite app_length, repeat_length. replace (Nat.max (length P') (length P' + k)) with (length P' + k)%nat by lia.
  unfold filled. rewrite app_length, repeat_length. replace (length P' + k - length P')%nat with k by lia. rewrite Nat.sub_diag. cbn [repeat]. rewrite app_nil_r. apply Permutation_refl.
Qed.
Lemma soft_shift ps soft : shift (ps ++ at_rest soft) (ps ++ soft) = Rsum (map (fun x => size (snd x)) soft).
Proof.
  unfold shift. induction ps as [|[i p] ps IH]; cbn [app].
  - unfold at_rest. induction soft as [|[i p] soft IH]; [reflexivity|]. cbn [map combine fst snd]. rewrite !Rsum_cons, IH. f_equal. unfold size, zero_mom. cbn [fv_x fv_y fv_z].
    f_equal. ring.
  - cbn [combine map fst snd]. rewrite Rsum_cons, IH. rewrite !Rminus_diag_eq by reflexivity. replace (0 ^ 2 + 0 ^ 2 + 0 ^ 2) with 0 by ring. rewrite sqrt_0. ring.
Qed.
Lemma soft_other ps soft ps2 ws ws' ws2 : phys ps -> phys soft -> phys ps2 ->
  exists d d', distance (N := RN) sort km tau (ev_of ps ws) (ev_of ps2 ws2) = Some d /\ distance (N := RN) sort km tau (ev_of (ps ++ soft) ws') (ev_of ps2 ws2) = Some d' /\
    Rabs (d' - d) <= sqrt (1 + tau ^ 2) * Rsum (map (fun x => size (snd x)) soft).
Proof.
  intros P1 P1' P2. assert (Pr : phys (ps ++ at_rest soft)) by (apply Forall_app; split; [exact P1|apply rest_phys]).
  assert (Ps : phys (ps ++ soft)) by (apply Forall_app; split; assumption).
  destruct (moved_other (ps ++ at_rest soft) (ps ++ soft) ps2 ws ws' ws2 Pr Ps P2) as (d & d' & D1 & D2 & D3).
  { unfold same_types, at_rest. rewrite !map_app, map_map. reflexivity. }
  destruct (@metric sort km tau mw Hs Hkm ps (ps ++ at_rest soft) ps2 ws ws ws2 P1 Pr P2) as (a & b & c & A & B & C & _ & _ & _ & T).
  destruct (@metric sort km tau mw Hs Hkm (ps ++ at_rest soft) ps ps2 ws ws ws2 Pr P1 P2) as (a' & b' & c' & A2 & B2 & C2 & _ & _ & A3 & T2).
  fold (ev_of ps ws) (ev_of (ps ++ at_rest soft) ws) (ev_of ps2 ws2) in *.
  rewrite (rest_zero ps soft ws ws P1) in A. injection A as <-. rewrite (rest_zero ps soft ws ws P1) in A3. injection A3 as <-.
  rewrite B in D1. injection D1 as <-. rewrite C in B2. injection B2 as <-. rewrite B in C2. injection C2 as <-.
  exists c, d'. split; [exact C|]. split; [exact D2|]. assert (b = c) by lra. subst b.
  eapply Rle_trans; [exact D3|]. rewrite <- soft_shift with (ps := ps). apply moves_shift.
Qed.
End Dist.

(** *** Searches with scaled distances *)
Lemma scaled_ids n q lam (dq dq' : nat -> R) max l l' : 0 < lam ->
  (forall i j, (i < n)%nat -> (j < n)%nat -> i <> q -> j <> q -> dq i = dq j -> i = j) ->
  (forall i, (i < n)%nat -> dq' i = lam * dq i) ->
  nearest_list (N := RN) n q dq max l -> nearest_list (N := RN) n q dq' (lam * max) l' -> map fst l = map fst l'.
Proof.
  intros Hl Hinj Hd H (N1 & N2 & N3 & N4).
  assert (U : l = map (fun x => (fst x, / lam * snd x)) l').
  { apply (nearest_list_unique Hinj H). split; [rewrite map_map; exact N1|]. split; [|split].
    - intros i. rewrite map_map. cbn [fst]. change (map (fun x : nat * R => fst x) l') with (map fst l'). rewrite N2. split; intros (A & B & C); (split; [exact A|]; split; [exact B|]); rewrite (Hd i A) in *; cbn in *; unfold Rleb in *.
      + destruct (Rle_dec (dq i) max) as [Y|Y]; [reflexivity|]. destruct (Rle_dec (lam * dq i) (lam * max)) as [Z|Z]; [|discriminate]. exfalso. apply Y. apply Rmult_le_reg_l with lam; assumption.
      + destruct (Rle_dec (lam * dq i) (lam * max)) as [Z|Z]; [reflexivity|]. destruct (Rle_dec (dq i) max) as [Y|Y]; [|discriminate]. exfalso. apply Z. apply Rmult_le_compat_l; lra.
    - apply Forall_forall. intros x Hx. apply in_map_iff in Hx as (y & <- & Hy). cbn [fst snd]. rewrite Forall_forall in N3. pose proof (N3 y Hy) as Ey.
      assert (I : In (fst y) (map fst l')) by (apply in_map; exact Hy). apply N2 in I as (A & _). pose proof (Hd _ A) as Ed.
      assert (E0 : / lam * (lam * dq (fst y)) = dq (fst y) :> R) by (field; lra).
      transitivity (/ lam * (lam * dq (fst y))); [f_equal; exact (eq_trans Ey Ed)|exact E0].
    - clear -N4 Hl. assert (0 < / lam) by (apply Rinv_0_lt_compat; exact Hl). induction N4 as [|x l' N4 IH F]; cbn [map]; constructor; [exact IH|].
      apply Forall_forall. intros z Hz. apply in_map_iff in Hz as (y & <- & Hy). rewrite Forall_forall in F. specialize (F y Hy). cbn in *. unfold Rleb in *.
      destruct (Rle_dec (snd x) (snd y)) as [Y|Y]; [|discriminate]. destruct (Rle_dec (/ lam * snd x) (/ lam * snd y)) as [Z|Z]; [reflexivity|]. exfalso. apply Z. apply Rmult_le_compat_l; lra. }
  rewrite U, map_map. reflexivity.
Qed.
