(** Searches among events whose distances differ by more than rounding errors. *)
From Coq Require Import NArith ZArith Reals Lra Lia SpecFloat Sorted.
From Flocq Require Import Core.Core IEEE754.BinarySingleNaN.
From Verif Require Import Base BaseProofs Num ModelEvent ModelDistance ModelCell ModelSeeds ModelNaive ModelVPTree ModelResampler SpecSearch SpecTree SpecTreeNear SpecAccuracy SpecSeparated
  B64Proofs NaiveProofs RunProofs2 VPTreeNear PropsTreeNear DistAccuracy3.
From Coq Require Import List.
Import ListNotations.
Local Open Scope R_scope.
Set Implicit Arguments.

Lemma exact_order_unique n q x max l l' : exact_order n q x max l -> exact_order n q x max l' -> l = l'.
Proof.
  intros [H1 S1] [H2 S2]. assert (E : forall i, In i l <-> In i l') by (intros i; rewrite H1, H2; reflexivity). clear H1 H2.
  revert l' S2 E. induction S1 as [|a l S1 IH F]; intros [|b l'] S2 E.
  - reflexivity.
  - exfalso. apply (E b). left. reflexivity.
  - exfalso. apply (E a). left. reflexivity.
  - inversion S2 as [|? ? S2' F']; subst. rewrite Forall_forall in F, F'.
    assert (a = b).
    { destruct (proj1 (E a) (or_introl eq_refl)) as [ -> | Ha]; [reflexivity|]. destruct (proj2 (E b) (or_introl eq_refl)) as [ -> | Hb]; [reflexivity|].
      pose proof (F _ Hb). pose proof (F' _ Ha). lra. }
    subst b. f_equal. apply IH; [exact S2'|]. intros i. split; intros Hi.
    + destruct (proj1 (E i) (or_intror Hi)) as [<-|H]; [|exact H]. pose proof (F _ Hi). lra.
    + destruct (proj2 (E i) (or_intror Hi)) as [<-|H]; [|exact H]. pose proof (F' _ Hi). lra.
Qed.

Lemma nodup_parts A (l l' : list A) : NoDup (l ++ l') -> (forall y, In y l -> ~ In y l') /\ NoDup l'.
Proof.
  induction l as [|a l IH]; intros H; [split; [intros y []|exact H]|]. inversion H as [|? ? Ha H']; subst. destruct (IH H') as [I1 I2]. split; [|exact I2].
  intros y [<-|Hy] Hy'; [|exact (I1 y Hy Hy')]. apply Ha. apply in_or_app. right. exact Hy'.
Qed.

Section Sep.
Context (n : nat) (err bound delta : R) (dist : nat -> nat -> B64) (x : nat -> nat -> R) (max : B64).
Hypothesis HM : near_metric n (3 * err) bound dist.
Hypothesis Hx : forall i j, (i < n)%nat -> (j < n)%nat -> Rabs (b64_val (dist i j) - x i j) <= err.
Hypothesis Hsym : forall i j, (i < n)%nat -> (j < n)%nat -> x i j = x j i.
Hypothesis Hd : 8 * err + bpow radix2 (-53) * bound <= delta.
Hypothesis Hsep : separated n x max delta.
Hypothesis Hmax : b64_fin max \/ max = b64_inf.

Lemma leb_limit d r : b64_fin d -> Rabs (b64_val d - r) <= err -> (b64_fin max -> delta < Rabs (r - b64_val max)) -> err <= delta ->
  nleb (n := B64) d max = true -> within_limit max r.
Proof.
  intros Fd Hr Hs He L. destruct Hmax as [Fm| ->]; [|left; reflexivity]. right. split; [exact Fm|].
  pose proof (le_fin Fd Fm L) as L'. specialize (Hs Fm). apply Rabs_le_inv in Hr.
  destruct (Rle_or_lt r (b64_val max)) as [Y|Y]; [exact Y|]. rewrite Rabs_pos_eq in Hs by lra. lra.
Qed.
Lemma limit_leb d r : b64_fin d -> Rabs (b64_val d - r) <= err -> (b64_fin max -> delta < Rabs (r - b64_val max)) -> err <= delta ->
  within_limit max r -> nleb (n := B64) d max = true.
Proof.
  intros Fd Hr Hs He [ -> | [Fm L]].
  - destruct d as [[]|[]| |[] m e]; destruct Fd as [_ Fd]; try discriminate Fd; reflexivity.
  - rewrite (b64_leb _ _ Fd Fm). unfold Rleb. destruct (Rle_dec (b64_val d) (b64_val max)) as [Y|Y]; [reflexivity|]. exfalso.
    specialize (Hs Fm). apply Rabs_le_inv in Hr. rewrite Rabs_left1 in Hs by lra. lra.
Qed.

Lemma err_pos : (0 < n)%nat -> 0 <= err /\ 0 <= bpow radix2 (-53) * bound /\ err <= delta.
Proof.
  intros Hn. destruct HM as (H1 & _). destruct (H1 0%nat 0%nat Hn Hn) as [_ H2]. pose proof (Hx Hn Hn) as H3. pose proof (Rabs_pos (b64_val (dist 0%nat 0%nat) - x 0%nat 0%nat)).
  assert (0 <= bpow radix2 (-53) * bound) by (apply Rmult_le_pos; [apply bpow_ge_0|lra]). lra.
Qed.

Lemma tree_exact sort choose q : sort_ok sort -> choose_ok choose -> (N.of_nat n <= usize_max)%N -> (q < n)%nat ->
  exists l, tree_nearest (F := B64) sort choose n dist max q = Some l /\ exact_order n q (x q) max (map fst l).
Proof.
  intros Hs Hc Hn Hq. destruct (@err_pos ltac:(lia)) as (E0 & E1 & E2).
  destruct (C91_near sort choose n _ _ dist max q Hs Hc HM Hmax Hn Hq) as (l & E & N1 & N2 & N3 & N4).
  exists l. split; [exact E|]. destruct HM as (M1 & _). destruct Hsep as [S1 S2]. split.
  - intros i. split.
    + intros Hi. apply in_map_iff in Hi as ([i' d] & <- & Hi). destruct (N2 _ _ Hi) as (A1 & A2 & -> & A4). cbn [fst]. split; [exact A1|]. split; [exact A2|].
      apply (@leb_limit (dist q i')); auto. apply M1; auto.
    + intros (Hi & Hiq & W). destruct (in_dec Nat.eq_dec i (map fst l)) as [Y|Y]; [exact Y|]. destruct (N4 i Hi Hiq Y) as [Fm L].
      exfalso. destruct W as [ -> | [_ W]]; [destruct Fm as [_ Fm]; discriminate Fm|]. specialize (S2 q i Hq Hi Hiq Fm). pose proof (Hx Hq Hi) as R. apply Rabs_le_inv in R.
      rewrite Rabs_left1 in S2 by lra. lra.
  - assert (K : forall l1 l2, l = l1 ++ l2 -> StronglySorted (fun i j => x q i < x q j) (map fst l2)).
    { intros l1 l2. revert l1. induction l2 as [|[i d] l2 IH]; intros l1 El; cbn [map fst]; constructor.
      - apply (IH (l1 ++ [(i, d)])). rewrite <- app_assoc. exact El.
      - apply Forall_forall. intros y Hy.
        assert (ND : NoDup (map fst l1 ++ i :: map fst l2)) by (rewrite El, map_app in N1; exact N1).
        assert (Ny : ~ In y (map fst l1)). { intros H. apply (proj1 (nodup_parts _ _ ND) y H). right. exact Hy. }
        assert (Iy : i <> y). { apply nodup_parts in ND as [_ ND]; apply NoDup_cons_iff in ND as [ND _]. intros ->. contradiction. }
        apply in_map_iff in Hy as ([y' dy] & <- & Hy). cbn [fst] in *.
        assert (Il : In (i, d) l) by (rewrite El; apply in_or_app; right; left; reflexivity).
        assert (Yl : In (y', dy) l) by (rewrite El; apply in_or_app; right; right; exact Hy).
        destruct (N2 _ _ Il) as (A1 & A2 & -> & _), (N2 _ _ Yl) as (B1 & B2 & _ & _).
        pose proof (N3 l1 i _ l2 El y' B1 B2 Ny) as L. pose proof (Hx Hq A1) as R1. pose proof (Hx Hq B1) as R2. apply Rabs_le_inv in R1, R2.
        specialize (S1 q i y' Hq A1 B1 A2 B2 Iy). destruct (Rlt_or_le (x q i) (x q y')) as [Y|Y]; [exact Y|]. rewrite Rabs_pos_eq in S1 by lra. lra. }
    apply (K [] l eq_refl).
Qed.

Lemma naive_exact choose q : choose_ok choose -> (q < n)%nat ->
  exists l, naive_nearest (N := B64) choose n dist max q = Some l /\ exact_order n q (x q) max (map fst l).
Proof.
  intros Hc Hq. destruct (@err_pos ltac:(lia)) as (E0 & E1 & E2). destruct HM as (M1 & _). destruct Hsep as [S1 S2].
  assert (NM : not_nan max) by (destruct Hmax as [F| ->]; [apply b64_fin_not_nan; exact F|discriminate]).
  destruct (naive_nearest_ok B64_order dist max Hc NM (fun i Hi => b64_fin_not_nan _ (proj1 (M1 i q Hi Hq))) Hq) as (l & E & N1 & N2 & N3 & N4).
  exists l. split; [exact E|].
  assert (X : forall i, (i < n)%nat -> Rabs (b64_val (dist i q) - x q i) <= err) by (intros i Hi; rewrite (Hsym Hq Hi); apply Hx; auto).
  split.
  - intros i. rewrite N2. split.
    + intros (A1 & A2 & A3). split; [exact A1|]. split; [exact A2|]. apply (@leb_limit (dist i q)); auto. apply M1; auto.
    + intros (A1 & A2 & A3). split; [exact A1|]. split; [exact A2|]. apply (@limit_leb (dist i q) (x q i)); auto. apply M1; auto.
  - assert (A : forall i, In i (map fst l) -> (i < n)%nat /\ i <> q) by (intros i Hi; apply N2 in Hi; tauto).
    clear N2 E. induction N4 as [|[i d] l N4 IH F]; cbn [map fst] in *; constructor.
    + apply IH; [inversion N1; assumption|inversion N3; assumption|]. intros j Hj. apply A. right. exact Hj.
    + apply Forall_forall. intros y Hy. assert (Iy : i <> y) by (apply NoDup_cons_iff in N1 as [ND _]; intros ->; contradiction).
      destruct (A i (or_introl eq_refl)) as [A1 A2]. destruct (A y (or_intror Hy)) as [B1 B2].
      apply in_map_iff in Hy as ([y' dy] & <- & Hy). cbn [fst] in *. rewrite Forall_forall in F. pose proof (F _ Hy) as L. cbn [snd] in L.
      rewrite Forall_forall in N3. pose proof (N3 _ (or_introl eq_refl)) as D1. pose proof (N3 _ (or_intror Hy)) as D2. cbn [fst snd] in D1, D2. subst d dy.
      pose proof (le_fin (proj1 (M1 i q A1 Hq)) (proj1 (M1 y' q B1 Hq)) L) as L'. pose proof (X i A1) as R1. pose proof (X y' B1) as R2. apply Rabs_le_inv in R1, R2.
      specialize (S1 q i y' Hq A1 B1 A2 B2 Iy). destruct (Rlt_or_le (x q i) (x q y')) as [Y|Y]; [exact Y|]. rewrite Rabs_pos_eq in S1 by lra. lra.
Qed.
End Sep.

(** *** Runs depend on the order of the neighbours only *)
Section Run.
Context (N : NumOps).
Definition same_ids (r r' : option (list (nat * N))) : Prop := option_map (map fst) r = option_map (map fst) r'.
Definition same_cell (c c' : Cell N) : Prop := members c = members c' /\ weight_sum c = weight_sum c'.

Lemma grow_ids ws : forall l l' (c c' : Cell N), map fst l = map fst l' -> same_cell c c' ->
  match cell_grow ws l c, cell_grow ws l' c' with Some a, Some b => same_cell a b | None, None => True | _, _ => False end.
Proof.
  induction l as [|[i d] l IH]; intros [|[i' d'] l'] c c' E [H1 H2]; try discriminate E; cbn [cell_grow].
  - split; assumption.
  - injection E as <- E. destruct (weight_at ws i) as [w|]; [|exact I]. rewrite <- H2. destruct (nleb n0 (nadd (weight_sum c) w)).
    + split; cbn [members weight_sum]; [rewrite H1|]; reflexivity.
    + apply IH; [exact E|]. split; cbn [members weight_sum]; [rewrite H1|]; reflexivity.
Qed.

Lemma resample_members mw ws (c c' : Cell N) : members c = members c' -> cell_resample mw ws c = cell_resample mw ws c'.
Proof. intros E. unfold cell_resample, resample_multi, resample_single. rewrite E. reflexivity. Qed.

Definition same_result (r r' : option (weights_state N * list (Cell N))) : Prop :=
  match r, r' with Some (ws, cs), Some (ws', cs') => ws = ws' /\ Forall2 same_cell cs cs' | None, None => True | _, _ => False end.

Lemma seeds_ids mw (near near' : search N) seeds : forall st st', (forall s, In s seeds -> same_ids (near s) (near' s)) -> same_result (Some st) (Some st') ->
  same_result (ofold (seed_step mw near) seeds st) (ofold (seed_step mw near') seeds st').
Proof.
  induction seeds as [|s seeds IH]; intros [ws cs] [ws' cs'] H [E F]; [split; assumption|]. cbn [ofold].
  assert (St : same_result (seed_step mw near (ws, cs) s) (seed_step mw near' (ws', cs') s)).
  { subst ws'. unfold seed_step. destruct (length ws <=? s)%nat; [exact I|]. destruct (weight_at ws s) as [w|] eqn:Ew; [|exact I].
    destruct (nltb n0 w); [split; [reflexivity|exact F]|]. specialize (H s (or_introl eq_refl)). unfold same_ids in H.
    destruct (near s) as [l|], (near' s) as [l'|]; try discriminate H; [|exact I]. cbn [option_map] in H. injection H as H.
    unfold cell_new. rewrite Ew. pose proof (@grow_ids ws l l' (mkCell [s] n0 w) (mkCell [s] n0 w) H (conj eq_refl eq_refl)) as G.
    destruct (cell_grow ws l (mkCell [s] n0 w)) as [c|], (cell_grow ws l' (mkCell [s] n0 w)) as [c'|]; try contradiction; [|exact I].
    rewrite (@resample_members mw ws c c' (proj1 G)). destruct (cell_resample mw ws c') as [ws1|]; [|exact I]. split; [reflexivity|]. apply Forall2_app; [exact F|]. constructor; [exact G|constructor]. }
  destruct (seed_step mw near (ws, cs) s) as [st1|], (seed_step mw near' (ws', cs') s) as [st2|]; [|destruct st1; contradiction|contradiction|exact I].
  apply IH; [|exact St]. intros t Ht. apply H. right. exact Ht.
Qed.

Lemma run_ids (D : N -> Prop) sort strategy mw (algo algo' : search_algo N) dist max (evs : list (Event N)) :
  sort_ok sort -> order_on N D -> (forall i w, weight_at (map ev_weights evs) i = Some w -> D w) ->
  (forall q, (q < length evs)%nat -> same_ids (algo (length evs) (dist_wrapper dist evs) max q) (algo' (length evs) (dist_wrapper dist evs) max q)) ->
  match resampler_resample mw sort strategy algo dist max evs, resampler_resample mw sort strategy algo' dist max evs with
  | Some (e, cs), Some (e', cs') => e = e' /\ Forall2 same_cell cs cs'
  | None, None => True
  | _, _ => False
  end.
Proof.
  intros Hs Ho HD H. unfold resampler_resample.
  destruct (select_seeds sort strategy (map ev_weights evs)) as [seeds|] eqn:E; [|exact I].
  unfold resample_seeds. pose proof (@seeds_ids mw (algo (length evs) (dist_wrapper dist evs) max) (algo' (length evs) (dist_wrapper dist evs) max) seeds (map ev_weights evs, []) (map ev_weights evs, [])) as G.
  match type of G with ?A -> ?B -> ?C => assert (C) as G' end.
  { apply G; [|split; [reflexivity|constructor]]. intros s Hin. apply H. pose proof (@select_seeds_lt N D sort strategy _ seeds Hs Ho HD E s Hin) as Hlt. rewrite map_length in Hlt. exact Hlt. }
  unfold same_result in G'. destruct (ofold _ seeds _) as [[ws1 cs1]|], (ofold (seed_step mw (algo' _ _ _)) seeds _) as [[ws2 cs2]|]; auto.
  destruct G' as [-> G']. split; [reflexivity|exact G'].
Qed.
End Run.
