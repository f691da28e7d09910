(** Rounding errors of the distance of two events, continued. *)
From Coq Require Import ZArith Reals Lra Lia Permutation SpecFloat Sorted.
From Flocq Require Import Core.Core IEEE754.BinarySingleNaN.
From Verif Require Import Base BaseProofs Num ModelEvent ModelDistance SpecWeights SpecEvent SpecDistance B64Proofs B64Errors B64Finite SpecMoments SpecAccuracy SumProofs EventProofs PairingProofs DistanceProofs DistanceProofs2 PropsDistance B64Distance B64Distance2 DistAccuracy DistAccuracy2 DistAccuracy3.
From Coq Require Import List.
Import ListNotations.
Local Open Scope R_scope.
Set Implicit Arguments.

Definition img (o : list (Z * list (FourVector B64))) : list (Z * list (FourVector RN)) :=
  map (fun g => (fst g, map real_mom (snd g))) o.

Section Merge.
Context (sort : sorter) (Hsort : sort_ok sort) (km : assignment B64).
Context (B T : R) (Blo : / 2 ^ 400 <= B) (Bhi : B <= 2 ^ 500) (T1 : 1 <= T) (T9 : T <= 2 ^ 9).
Context (tau : B64) (Ftau : b64_fin tau) (Htau : Rabs (b64_val tau) <= T).
Let M := minv (mom_dist (b64_val tau)) zero_mom.
Let G (P : list (FourVector B64)) := Forall (mom_upto B) P /\ (km_accurate km \/ (length P <= 3)%nat).
Let near := sum_near B T.
Let rloop := merge_loop (N := RN) sort km_brute (b64_val tau).

Lemma real_phys P : Forall physical (map real_mom P).
Proof. apply Forall_map, Forall_forall. intros p _. reflexivity. Qed.

Lemma norms_near l : forall k x r, Forall (fun g => G (snd g)) l -> near k x r -> some (k + count l) ->
  near (k + count l) (fold_left (nadd (n := B64)) (map (fun g => set_norm tau (snd g)) l) x)
    (r + Rsum (map (fun g => set_norm (N := RN) (b64_val tau) (snd g)) (img l))).
Proof.
  induction l as [|[t P] l IH]; intros k x r HG Hx Hk.
  - cbn [img map fold_left count]. change (count []) with 0%nat. rewrite Nat.add_0_r. change (Rsum []) with 0. rewrite Rplus_0_r. exact Hx.
  - inversion HG as [|? ? [HP _] HG']; subst. cbn [snd] in HP. change (count ((t, P) :: l)) with (length P + count l)%nat in *.
    cbn [img map fold_left snd fst]. fold (img l). rewrite Rsum_cons, <- Rplus_assoc. rewrite Nat.add_assoc in *. apply IH; [exact HG'| |exact Hk].
    apply near_add; auto; [unfold some in *; lia|]. rewrite set_norm_RN by apply real_phys. apply norm_set; auto. unfold some in *; lia.
Qed.

Lemma merge_near : forall out1 out2 k x r, Forall (fun g => G (snd g)) out1 -> Forall (fun g => G (snd g)) out2 -> near k x r ->
  some (k + count out1 + count out2) ->
  exists d v, merge_loop sort km tau x out1 out2 = Some d /\ rloop r (img out1) (img out2) = Some v /\ near (k + count out1 + count out2) d v.
Proof.
  assert (L : forall l k x r, Forall (fun g => G (snd g)) l -> near k x r -> some (k + count l) ->
    near (k + count l) (nadd (n := B64) x (nsum (N := B64) (map (fun g => set_norm tau (snd g)) l)))
      (r + nsum (N := RN) (map (fun g => set_norm (N := RN) (b64_val tau) (snd g)) (img l)))).
  { intros l k x r HG Hx Hk. apply near_add; auto. rewrite nsum_RN, <- (Rplus_0_l (Rsum _)). apply (@norms_near l 0%nat n0 0 HG (near_0 B T)). unfold some in *. lia. }
  assert (Norm : forall P, G P -> some (length P) -> near (length P) (set_norm tau P) (set_norm (N := RN) (b64_val tau) (map real_mom P))).
  { intros P [HP _] Hk. rewrite set_norm_RN by apply real_phys. apply norm_set; auto. }
  induction out1 as [|[t1 P1] out1 IH]; intros out2.
  - intros k x r _ H2 Hx Hk. destruct out2 as [|g out2].
    + exists x, r. split; [reflexivity|]. split; [reflexivity|]. change (count []) with 0%nat. rewrite !Nat.add_0_r. exact Hx.
    + eexists. eexists. split; [reflexivity|]. split; [reflexivity|]. change (count []) with 0%nat in *. rewrite Nat.add_0_r in *. apply (L (g :: out2)); assumption.
  - induction out2 as [|[t2 P2] out2 IH2]; intros k x r H1 H2 Hx Hk.
    + eexists. eexists. split; [reflexivity|]. split; [reflexivity|]. change (count []) with 0%nat in *. rewrite Nat.add_0_r in *. apply (L ((t1, P1) :: out1)); assumption.
    + inversion H1 as [|? ? HP1 H1']; subst. inversion H2 as [|? ? HP2 H2']; subst. cbn [snd] in HP1, HP2.
      change (count ((t1, P1) :: out1)) with (length P1 + count out1)%nat in *. change (count ((t2, P2) :: out2)) with (length P2 + count out2)%nat in *.
      unfold rloop in *. cbn [img map fst snd] in *. fold (img out1) (img out2) in *. cbn [merge_loop] in *. destruct (Z.compare t1 t2).
      * destruct HP1 as [HP1 L1], HP2 as [HP2 L2].
        destruct (@min_near B T Blo Bhi T1 T9 tau Ftau Htau sort km P1 P2 Hsort HP1 HP2 ltac:(unfold some in *; lia) ltac:(unfold some in *; lia) L1 L2) as (d & -> & Hd).
        rewrite (@set_RN sort km_brute (b64_val tau) Hsort km_brute_ok) by apply real_phys.
        replace (k + (length P1 + count out1) + (length P2 + count out2))%nat with ((k + (length P1 + length P2)) + count out1 + count out2)%nat in * by lia.
        apply IH; [exact H1'|exact H2'| |exact Hk]. apply near_add; auto. unfold some in *; lia.
      * replace (k + (length P1 + count out1) + (length P2 + count out2))%nat with ((k + length P2) + (length P1 + count out1) + count out2)%nat in * by lia.
        apply IH2; [exact H1|exact H2'| |exact Hk]. apply near_add; auto; [unfold some in *; lia|]. apply Norm; [exact HP2|unfold some in *; lia].
      * replace (k + (length P1 + count out1) + (length P2 + count out2))%nat with ((k + length P1) + count out1 + (length P2 + count out2))%nat in * by lia.
        apply (IH ((t2, P2) :: out2)); [exact H1'|exact H2| |exact Hk]. apply near_add; auto; [unfold some in *; lia|]. apply Norm; [exact HP1|unfold some in *; lia].
Qed.

Lemma count_particles (o : list (Z * list (FourVector B64))) : count o = length (particles_of o).
Proof.
  induction o as [|[t P] o IH]; [reflexivity|]. change (count ((t, P) :: o)) with (length P + count o)%nat. rewrite IH.
  unfold particles_of. cbn [flat_map fst snd]. rewrite app_length, map_length. reflexivity.
Qed.

Lemma look_img o id : look (img o) id = map real_mom (look o id).
Proof.
  induction o as [|[t P] o IH]; [reflexivity|]. cbn [img map fst snd]. fold (img o). rewrite !look_cons, map_app, IH. f_equal. destruct (Z.eqb t id); reflexivity.
Qed.

Lemma with_id_real id ps : with_id id (real_particles ps) = map real_mom (with_id id ps).
Proof.
  unfold with_id, real_particles. induction ps as [|[i p] ps IH]; [reflexivity|]. cbn [map filter fst snd]. destruct (Z.eqb i id); cbn [map snd]; rewrite IH; reflexivity.
Qed.

Lemma built_B64 mw n ps (ws : list B64) : few_upto km B n ps ->
  let o := ev_out (build sort (made (N := B64) mw ps ws)) in
  Forall (fun g => G (snd g)) o /\ count o = length ps /\ StronglySorted (@desc RN) (img o) /\
  (forall g, In g (img o) -> In (fst g) (map fst ps)) /\
  (forall id, Permutation (look (img o) id) (with_id id (real_particles ps))).
Proof.
  intros (Hp & H3 & _) o. destruct (@made_build B64 not_nan sort mw ps ws B64_cmp Hsort) as (_ & _ & [G1 G2] & G3).
  { apply Forall_forall. intros x Hx. apply moderate_not_nan. rewrite Forall_forall in Hp. apply (mom_moderate Bhi (Hp x Hx)). }
  fold o in G1, G2, G3. rewrite Forall_forall in G2.
  assert (I : forall id qs q, In (id, qs) o -> In q qs -> In (id, q) ps).
  { intros id qs q Hg Hq. apply (Permutation_in _ (Permutation_sym G3)). unfold particles_of. apply in_flat_map. exists (id, qs). split; [exact Hg|]. apply in_map. exact Hq. }
  assert (LK : forall id, Permutation (look o id) (with_id id ps)) by (intros id; apply with_id_perm; symmetry; exact G3).
  split; [|split; [|split; [|split]]].
  - apply Forall_forall. intros [id qs] Hg. cbn [snd]. split.
    + apply Forall_forall. intros q Hq. rewrite Forall_forall in Hp. apply (Hp (id, q)). exact (I id qs q Hg Hq).
    + destruct H3 as [H3|H3]; [left; exact H3|right].
      assert (LE : (length qs <= length (look o id))%nat).
      { clear -Hg. induction o as [|[t P] o IH]; [destruct Hg|]. rewrite look_cons, app_length. destruct Hg as [E|Hg].
        - injection E as -> ->. rewrite Z.eqb_refl. lia.
        - specialize (IH Hg). lia. }
      rewrite (Permutation_length (LK id)) in LE. unfold with_id in LE. rewrite map_length in LE. specialize (H3 id). lia.
  - rewrite count_particles. symmetry. apply Permutation_length. exact G3.
  - clear -G1. induction G1 as [|[t P] o G1 IH H]; cbn [img map]; constructor; [exact IH|]. fold (img o). unfold img. apply Forall_map. eapply Forall_impl; [|exact H]. intros [t' P'] H'. exact H'.
  - intros g Hg. apply in_map_iff in Hg as ([id qs] & <- & Hg). cbn [fst]. destruct (G2 _ Hg) as [Hne _]. cbn [snd] in Hne. destruct qs as [|q qs]; [congruence|].
    apply (in_map fst _ _ (I id (q :: qs) q Hg (or_introl eq_refl))).
  - intros id. rewrite look_img, with_id_real. apply Permutation_map. apply LK.
Qed.

Lemma distance_near mw mw' n n' ps ps' (ws ws' : list B64) ids : few_upto km B n ps -> few_upto km B n' ps' -> (Z.of_nat (n + n') <= 2 ^ 40)%Z -> NoDup ids ->
  (forall id, In id (map fst ps) \/ In id (map fst ps') -> In id ids) ->
  exists d, distance sort km tau (build sort (made mw ps ws)) (build sort (made mw' ps' ws')) = Some d /\
    near (n + n') d (Rsum (map (fun id => M (with_id id (real_particles ps)) (with_id id (real_particles ps'))) ids)).
Proof.
  intros H H' Hn Hnd Hids. destruct (built_B64 mw ws H) as (A1 & A2 & A3 & A4 & A5), (built_B64 mw' ws' H') as (B1 & B2 & B3 & B4 & B5).
  set (o := ev_out (build sort (made mw ps ws))) in *. set (o' := ev_out (build sort (made mw' ps' ws'))) in *.
  destruct H as (_ & _ & Ln), H' as (_ & _ & Ln').
  destruct (@merge_near o o' 0%nat n0 0 A1 B1 (near_0 B T)) as (d & v & E & Ev & Hd).
  { unfold some. rewrite A2, B2. lia. }
  exists d. split; [exact E|]. unfold rloop in Ev. rewrite (@merge_RN sort km_brute (b64_val tau) Hsort km_brute_ok ids Hnd) in Ev; auto.
  - injection Ev as <-. rewrite Rplus_0_l in Hd. eapply near_mono; [exact Blo|exact T1| |].
    2:{ match goal with |- sum_near _ _ _ _ ?r => match type of Hd with near _ _ ?r' => replace r with r'; [exact Hd|] end end.
        apply Rsum_map_ext. intros id _. apply minv_perm; auto. }
    rewrite A2, B2. lia.
  - apply Forall_map, Forall_forall. intros g _. apply real_phys.
  - apply Forall_map, Forall_forall. intros g _. apply real_phys.
Qed.
End Merge.
