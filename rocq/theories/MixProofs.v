(** Lemmas about linear combinations of weights. *)
From Coq Require Import Reals Lra Lia FunctionalExtensionality.
From Verif Require Import Base BaseProofs Num ModelEvent ModelCell ModelSeeds ModelResampler SpecWeights SpecSearch SpecMix SumProofs CellProofs RunProofs RunProofs2.
From Coq Require Import List.
Import ListNotations.
Local Open Scope R_scope.

Section Mix.
Context (mw : bool) (nw : nat) (c0 : R) (others : list (list R)).
Let A := [c0] :: others.
Hypothesis Hc : 0 < c0.
Hypothesis Hmw : mw = false -> others = [].

Lemma mix_length w : length (mix A w) = length A.
Proof. apply map_length. Qed.
Lemma mix_hd w : nth_error (mix A w) 0 = Some (c0 * nth 0 w 0).
Proof. unfold mix, A, combination. cbn [map nth_error length seq nth]. rewrite Rsum_cons, Rsum_nil, Rplus_0_r. reflexivity. Qed.
Lemma mix_nth k w : nth k (mix A w) 0 = combination (nth k A []) w.
Proof.
  unfold mix. assert (E : 0 = combination [] w) by reflexivity. rewrite E at 1. exact (map_nth (fun coeffs => combination coeffs w) A [] k).
Qed.
Lemma mix_shaped (ws : list (list R)) : shaped mw nw ws -> shaped mw (length A) (map (mix A) ws).
Proof.
  intros (H1 & H2 & H3). split; [unfold A; cbn; lia|]. split; [intros E; unfold A; rewrite (Hmw E); reflexivity|].
  apply Forall_forall. intros w Hw. apply in_map_iff in Hw as (v & <- & _). apply mix_length.
Qed.
Lemma mix_weight (ws : list (list R)) i : shaped mw nw ws -> weight_at (N := RN) (map (mix A) ws) i = option_map (Rmult c0) (weight_at (N := RN) ws i).
Proof.
  intros (H1 & _ & H3). unfold weight_at. change (@nth_error (list (num RN))) with (@nth_error (list R)). rewrite nth_error_map. destruct (nth_error ws i) as [w|] eqn:E; cbn [option_map]; [|reflexivity].
  unfold central. rewrite mix_hd. apply nth_error_In in E. unfold uniform in H3. rewrite Forall_forall in H3. specialize (H3 w E). destruct w as [|x w]; [cbn in H3; lia|]. reflexivity.
Qed.
Lemma sign_lt w : nltb (n := RN) (c0 * w) 0 = nltb (n := RN) w 0.
Proof. cbn. unfold Rltb. destruct (Rlt_dec (c0 * w) 0), (Rlt_dec w 0); try reflexivity; exfalso; nra. Qed.
Lemma sign_gt w : nltb (n := RN) 0 (c0 * w) = nltb (n := RN) 0 w.
Proof. cbn. unfold Rltb. destruct (Rlt_dec 0 (c0 * w)), (Rlt_dec 0 w); try reflexivity; exfalso; nra. Qed.
Lemma scale_le v w : nleb (n := RN) (c0 * v) (c0 * w) = nleb (n := RN) v w.
Proof. cbn. unfold Rleb. destruct (Rle_dec (c0 * v) (c0 * w)), (Rle_dec v w); try reflexivity; exfalso; nra. Qed.

(** *** Cells *)
Definition scaled_cell (c c' : Cell RN) : Prop := members c = members c' /\ weight_sum c' = c0 * weight_sum c.
Lemma mix_grow ws : shaped mw nw ws -> forall nbrs c c', scaled_cell c c' ->
  match cell_grow (N := RN) ws nbrs c, cell_grow (N := RN) (map (mix A) ws) nbrs c' with Some a, Some b => scaled_cell a b | None, None => True | _, _ => False end.
Proof.
  intros Hw. induction nbrs as [|[i d] nbrs IH]; intros c c' [E1 E2]; cbn [cell_grow]; [split; assumption|].
  rewrite (mix_weight ws i Hw). destruct (weight_at (N := RN) ws i) as [w|]; cbn [option_map]; [|exact I]. rewrite E2.
  assert (E : nadd (n := RN) (c0 * weight_sum c) (c0 * w) = c0 * nadd (n := RN) (weight_sum c) w) by (cbn; ring).
  assert (G : nleb (n := RN) n0 (c0 * nadd (n := RN) (weight_sum c) w) = nleb (n := RN) n0 (nadd (n := RN) (weight_sum c) w)).
  { etransitivity; [|apply scale_le]. apply (f_equal (fun z => nleb (n := RN) z (c0 * nadd (n := RN) (weight_sum c) w))). cbn. ring. }
  change (nadd (n := RN) (c0 * weight_sum c) ((fun y => c0 * y) w)) with (nadd (n := RN) (c0 * weight_sum c) (c0 * w)). cbv zeta. rewrite E, G.
  destruct (nleb (n := RN) n0 (nadd (n := RN) (weight_sum c) w)).
  - split; cbn [members weight_sum]; [rewrite E1|]; reflexivity.
  - apply IH. split; cbn [members weight_sum]; [rewrite E1|]; reflexivity.
Qed.

Lemma mean_comb coeffs (ms : list nat) (ws : list (list R)) :
  mean (map (fun j => combination coeffs (nth j ws [])) ms) = Rsum (map (fun k => nth k coeffs 0 * mean (map (fun j => comp ws j k) ms)) (seq 0 (length coeffs))).
Proof.
  assert (Q : forall f : nat -> R, mean (map f ms) = Rsum (map f ms) * / INR (length ms)) by (intros f; unfold mean; rewrite map_length; reflexivity).
  rewrite Q. transitivity (Rsum (map (fun k => nth k coeffs 0 * (Rsum (map (fun j => comp ws j k) ms) * / INR (length ms))) (seq 0 (length coeffs)))); [|f_equal; apply map_ext; intros k; rewrite Q; reflexivity].
  unfold combination. generalize (seq 0 (length coeffs)). intros ks.
  assert (G : Rsum (map (fun j => Rsum (map (fun k => nth k coeffs 0 * nth k (nth j ws []) 0) ks)) ms) = Rsum (map (fun k => nth k coeffs 0 * Rsum (map (fun j => comp ws j k) ms)) ks)).
  { clear Q. induction ms as [|m ms IH]; cbn [map].
    - symmetry. change (Rsum []) with 0. induction ks as [|k ks IH]; cbn [map]; [apply Rsum_nil|]. rewrite Rsum_cons, IH. change (Rsum []) with 0. ring.
    - rewrite Rsum_cons, IH. clear IH. induction ks as [|k ks IH]; cbn [map]; [rewrite !Rsum_nil; ring|]. rewrite !Rsum_cons, <- IH. unfold comp. ring. }
  rewrite G. clear G. induction ks as [|k ks IH]; cbn [map]; [rewrite !Rsum_nil; ring|]. rewrite !Rsum_cons, Rmult_plus_distr_r, IH. ring.
Qed.

Lemma mix_resample ws c c' ws1 : shaped mw nw ws -> members c <> [] -> members c = members c' -> cell_resample (N := RN) mw ws c = Some ws1 ->
  cell_resample (N := RN) mw (map (mix A) ws) c' = Some (map (mix A) ws1).
Proof.
  intros Hw Hne E H. pose proof (mix_shaped ws Hw) as Hw'. destruct (resample_frame _ _ _ H) as (Nd & Lt & Le & _).
  assert (S : exists ws2, cell_resample (N := RN) mw (map (mix A) ws) c' = Some ws2).
  { destruct mw eqn:Emw.
    - apply (resample_some_multi (N := RN) (map (mix A) ws) c' (n := length A)); [rewrite <- E; exact Nd|rewrite <- E; exact Hne|]. rewrite <- E. intros i Hi.
      specialize (Lt i Hi). destruct (nth_error ws i) as [w|] eqn:Ew; [|apply nth_error_None in Ew; lia]. exists (mix A w). split; [apply map_nth_error; exact Ew|apply mix_length].
    - apply (resample_some_single (N := RN) (map (mix A) ws) c'); [rewrite <- E; exact Nd|]. rewrite <- E. intros i Hi.
      specialize (Lt i Hi). destruct (nth_error ws i) as [w|] eqn:Ew; [|apply nth_error_None in Ew; lia]. exists (combination [c0] w). rewrite (map_nth_error _ _ _ Ew). unfold mix, A. rewrite (Hmw eq_refl). reflexivity. }
  destruct S as (ws2 & H2). rewrite H2. f_equal.
  assert (F1 : wf_weights mw ws) by (intros Em; destruct Hw as (_ & Hw1 & Hw2); rewrite (Hw1 Em) in Hw2; exact Hw2).
  assert (F2 : wf_weights mw (map (mix A) ws)) by (intros Em; destruct Hw' as (_ & Hw1 & Hw2); rewrite (Hw1 Em) in Hw2; exact Hw2).
  destruct (resample_spec F1 H) as (L1 & L2 & M1 & M2). destruct (resample_spec F2 H2) as (K1 & K2 & N1 & N2). rewrite map_length in K1.
  assert (X : forall i, nth i (map (mix A) ws) [] = if i <? length ws then mix A (nth i ws []) else []).
  { intros i. destruct (Nat.ltb_spec i (length ws)) as [Hi|Hi]; [|apply nth_overflow; rewrite map_length; exact Hi]. rewrite nth_indep with (d' := mix A []) by (rewrite map_length; exact Hi). apply map_nth. }
  apply (@nth_error_ext (list R)). intros i. rewrite nth_error_map. destruct (in_dec Nat.eq_dec i (members c)) as [Hi|Hi].
  - pose proof (Lt i Hi) as Hlt. 
    assert (Y1 : @nth_error (list R) ws1 i <> None) by (apply nth_error_Some; eapply Nat.lt_le_trans; [exact Hlt|apply Nat.eq_le_incl; symmetry; exact L1]).
    assert (Y2 : @nth_error (list R) ws2 i <> None) by (apply nth_error_Some; eapply Nat.lt_le_trans; [exact Hlt|apply Nat.eq_le_incl; symmetry; exact K1]).
    destruct (@nth_error (list R) ws1 i) as [w1|] eqn:E1; [clear Y1|contradiction (Y1 eq_refl)]. destruct (@nth_error (list R) ws2 i) as [w2|] eqn:E2; [clear Y2|contradiction (Y2 eq_refl)].
    cbn [option_map]. f_equal. pose proof (nth_error_nth ws2 i [] E2) as T2. pose proof (nth_error_nth ws1 i [] E1) as T1.
    apply nth_ext with (d := 0) (d' := 0).
    + rewrite mix_length, <- T2. etransitivity; [exact (K2 i)|]. etransitivity; [apply (f_equal (@length R)); exact (X i)|]. etransitivity; [|apply (mix_length (nth i ws []))].
      apply (f_equal (@length R)). destruct (Nat.ltb_spec i (length ws)) as [_|Hge]; [reflexivity|]. exfalso. exact (Nat.lt_irrefl _ (Nat.lt_le_trans _ _ _ Hlt Hge)).
    + intros k Hk. rewrite mix_nth. transitivity (comp ws2 i k); [unfold comp; apply (f_equal (fun l => nth k l 0)); symmetry; exact T2|]. etransitivity; [apply N1; rewrite <- E; exact Hi|]. rewrite <- E.
      transitivity (mean (map (fun j => combination (nth k A []) (nth j ws [])) (members c))).
      * f_equal. apply map_ext_in. intros j Hj. unfold comp. etransitivity; [apply (f_equal (fun l => nth k l 0)); exact (X j)|]. destruct (Nat.ltb_spec j (length ws)) as [_|Hge]; [apply mix_nth|]. exfalso. exact (Nat.lt_irrefl _ (Nat.lt_le_trans _ _ _ (Lt j Hj) Hge)).
      * rewrite mean_comb. unfold combination. f_equal. apply map_ext. intros j. f_equal. rewrite <- T1. symmetry. apply (M1 i j Hi).
  - etransitivity; [apply (N2 i); rewrite <- E; exact Hi|]. etransitivity; [apply (nth_error_map (mix A) i ws)|]. apply f_equal. symmetry. exact (M2 i Hi).
Qed.

Lemma grow_nonempty ws : forall nbrs (c c1 : Cell RN), members c <> [] -> cell_grow (N := RN) ws nbrs c = Some c1 -> members c1 <> [].
Proof.
  induction nbrs as [|[i d] nbrs IH]; intros c c1 Hne H; cbn [cell_grow] in H; [injection H as <-; exact Hne|].
  destruct (weight_at (N := RN) ws i) as [w|]; [|discriminate]. destruct (nleb (n := RN) n0 (nadd (n := RN) (weight_sum c) w)).
  - injection H as <-. cbn [members]. destruct (members c); discriminate.
  - eapply IH; [|exact H]. cbn [members]. destruct (members c); discriminate.
Qed.

(** *** Runs *)
Definition mixed (st st' : weights_state RN * list (Cell RN)) : Prop := shaped mw nw (fst st) /\ fst st' = map (mix A) (fst st) /\ Forall2 scaled_cell (snd st) (snd st').
Lemma mix_step near seed st st' st1 : mixed st st' -> seed_step (N := RN) mw near st seed = Some st1 ->
  exists st1', seed_step (N := RN) mw near st' seed = Some st1' /\ mixed st1 st1'.
Proof.
  destruct st as [ws cs], st' as [ws' cs']. intros (Hw & E & F) H. cbn [fst snd] in *. subst ws'. unfold seed_step in *.
  assert (L : (@length (list (num RN)) (map (mix A) ws) <=? seed)%nat = (@length (list (num RN)) ws <=? seed)%nat) by (rewrite map_length; reflexivity). rewrite L.
  destruct (@length (list (num RN)) ws <=? seed)%nat; [discriminate H|]. rewrite (mix_weight ws seed Hw). destruct (weight_at (N := RN) ws seed) as [w|] eqn:Ew; [|discriminate]. cbn [option_map].
  change (nltb (n := RN) n0 (c0 * w)) with (nltb (n := RN) 0 (c0 * w)). rewrite sign_gt. destruct (nltb (n := RN) 0 w) eqn:Es.
  - assert (Es' : nltb (n := RN) n0 w = true) by exact Es. rewrite Es' in H. injection H as <-. eexists. split; [reflexivity|]. repeat split; auto; apply Hw.
  - assert (Es' : nltb (n := RN) n0 w = false) by exact Es. rewrite Es' in H. destruct (near seed) as [nbrs|]; [|discriminate]. unfold cell_new in *. rewrite Ew in H. rewrite (mix_weight ws seed Hw), Ew. cbn [option_map].
    pose proof (mix_grow ws Hw nbrs (mkCell [seed] n0 w) (mkCell [seed] n0 (c0 * w)) (conj eq_refl eq_refl)) as G.
    destruct (cell_grow (N := RN) ws nbrs (mkCell [seed] n0 w)) as [c|] eqn:Ec; [|discriminate].
    destruct (cell_grow (N := RN) (map (mix A) ws) nbrs (mkCell [seed] n0 (c0 * w))) as [c'|] eqn:Ec'; [|contradiction].
    destruct (cell_resample (N := RN) mw ws c) as [ws1|] eqn:Er; [|discriminate]. injection H as <-.
    assert (Hne : members c <> []) by (eapply grow_nonempty; [|exact Ec]; discriminate).
    rewrite (mix_resample ws c c' ws1 Hw Hne (proj1 G) Er). eexists. split; [reflexivity|]. split; [|split].
    + cbn [fst]. eapply resample_shaped; [exact Hw|exact Er].
    + reflexivity.
    + cbn [snd]. apply Forall2_app; [exact F|]. constructor; [exact G|constructor].
Qed.
Lemma mix_seeds near seeds : forall st st' st1, mixed st st' -> ofold (seed_step (N := RN) mw near) seeds st = Some st1 ->
  exists st1', ofold (seed_step (N := RN) mw near) seeds st' = Some st1' /\ mixed st1 st1'.
Proof.
  induction seeds as [|s seeds IH]; intros st st' st1 M H; cbn [ofold] in *; [injection H as <-; eauto|].
  destruct (seed_step (N := RN) mw near st s) as [st2|] eqn:E; [|discriminate]. destruct (mix_step near s st st' st2 M E) as (st2' & E' & M'). rewrite E'. eapply IH; eassumption.
Qed.

Lemma omap_central (ws : list (list R)) : (0 < nw)%nat -> uniform nw ws -> omap (central (N := RN)) ws = Some (map (fun w => nth 0 w 0) ws).
Proof.
  intros H U. induction U as [|w ws Hw U IH]; [reflexivity|]. cbn [omap map]. destruct w as [|x w]; [cbn in Hw; lia|]. cbn [central nth_error]. rewrite IH. reflexivity.
Qed.
Lemma mix_select sort strategy (ws : list (list R)) : shaped mw nw ws -> select_seeds (N := RN) sort strategy (map (mix A) ws) = select_seeds (N := RN) sort strategy ws.
Proof.
  intros Hw. pose proof (mix_shaped ws Hw) as Hw'. unfold select_seeds. rewrite (omap_central ws) by apply Hw.
  assert (E : omap (central (N := RN)) (map (mix A) ws) = Some (map (fun w => c0 * nth 0 w 0) ws)).
  { clear Hw Hw'. induction ws as [|w ws IH]; [reflexivity|]. cbn [map omap]. unfold central at 1. rewrite mix_hd, IH. reflexivity. }
  rewrite E. rewrite !map_length.
  assert (K : forall n, key_of (N := RN) (map (fun w => c0 * nth 0 w 0) ws) n = c0 * key_of (N := RN) (map (fun w => nth 0 w 0) ws) n).
  { intros n. unfold key_of. revert n. induction ws as [|w ws IH]; intros [|n]; cbn; try ring. apply IH. clear -Hw. destruct Hw as (a & b & c). split; [exact a|]. split; [exact b|]. inversion c; assumption.
    clear -Hw'. cbn [map] in Hw'. destruct Hw' as (a & b & c). split; [exact a|]. split; [exact b|]. inversion c; assumption.
    cbn [map omap] in E. destruct (central (mix A w)); [|discriminate]. destruct (omap (central (N := RN)) (map (mix A) ws)); [|discriminate]. injection E as _ ->. reflexivity. }
  assert (F : forall l : list nat, filter (fun '(_, w) => nltb (n := RN) w n0) (combine l (map (fun w => c0 * nth 0 w 0) ws)) = map (fun x : nat * R => (fst x, c0 * snd x)) (filter (fun '(_, w) => nltb (n := RN) w n0) (combine l (map (fun w => nth 0 w 0) ws)))).
  { clear Hw Hw' E K. induction ws as [|w ws IH]; intros [|i l]; cbn [map combine filter]; try reflexivity.
    change (nltb (n := RN) (c0 * nth 0 w 0) n0) with (nltb (n := RN) (c0 * nth 0 w 0) 0). rewrite sign_lt. change (nltb (n := RN) (nth 0 w 0) n0) with (nltb (n := RN) (nth 0 w 0) 0).
    destruct (nltb (n := RN) (nth 0 w 0) 0); cbn [map fst snd]; rewrite IH; reflexivity. }
  rewrite F, map_map. cbn [fst]. cbv zeta.
  assert (L1 : (fun n m => nleb (n := RN) (key_of (N := RN) (map (fun w => c0 * nth 0 w 0) ws) n) (key_of (N := RN) (map (fun w => c0 * nth 0 w 0) ws) m)) =
               (fun n m => nleb (n := RN) (key_of (N := RN) (map (fun w => nth 0 w 0) ws) n) (key_of (N := RN) (map (fun w => nth 0 w 0) ws) m))).
  { apply functional_extensionality. intros n. apply functional_extensionality. intros k. rewrite !K. apply scale_le. }
  assert (L2 : (fun n m => nleb (n := RN) (key_of (N := RN) (map (fun w => c0 * nth 0 w 0) ws) m) (key_of (N := RN) (map (fun w => c0 * nth 0 w 0) ws) n)) =
               (fun n m => nleb (n := RN) (key_of (N := RN) (map (fun w => nth 0 w 0) ws) m) (key_of (N := RN) (map (fun w => nth 0 w 0) ws) n))).
  { apply functional_extensionality. intros n. apply functional_extensionality. intros k. rewrite !K. apply scale_le. }
  f_equal. destruct strategy; [rewrite L2|rewrite L1|]; reflexivity.
Qed.
End Mix.
