(** Runs with a maximum cell size that no cell reaches. *)
From Coq Require Import Permutation.
From Verif Require Import Base BaseProofs Num ModelEvent ModelCell ModelSeeds ModelNaive ModelResampler SpecWeights SpecSearch SpecOrder SpecRegion CellProofs RunProofs SeedsProofs OrderProofs PropsRun RegionProofs RegionProofs2.
From Coq Require Import Lia List.
Import ListNotations.

Section Limit.
Context (N : NumOps).

(** neighbours within the smaller limit come first *)
Lemma split_sorted (D : N -> Prop) M (l : list (nat * N)) : order_on N D -> D M -> Forall (fun x => D (snd x)) l -> StronglySorted (fun x y => nleb (snd x) (snd y) = true) l ->
  exists rest, l = filter (fun x => nleb (snd x) M) l ++ rest /\ Forall (fun x => nleb (snd x) M = false) rest.
Proof.
  intros ((Tot & Tr) & _) DM Dl S. induction S as [|x l S IH Hx]; [exists []; auto|]. inversion Dl as [|? ? Dx Dl']; subst. destruct (IH Dl') as (rest & E & F). cbn [filter]. destruct (nleb (snd x) M) eqn:Ex.
  - exists rest. split; [cbn; congruence|exact F].
  - assert (G : Forall (fun y => nleb (snd y) M = false) l).
    { rewrite Forall_forall in *. intros y Hy. destruct (nleb (snd y) M) eqn:Ey; [|reflexivity]. rewrite (Tr (snd x) (snd y) M) in Ex; auto. }
    exists (x :: l). split; [|constructor; assumption]. assert (E0 : filter (fun x => nleb (snd x) M) l = []); [|rewrite E0; reflexivity].
    clear -G. induction G as [|y l Hy G IH]; [reflexivity|]. cbn [filter]. rewrite Hy. exact IH.
Qed.
Lemma limit_nearest (D : N -> Prop) n q (d : nat -> N) max M l l' : order_on N D -> (forall i, i < n -> D (d i)) -> D M -> D max -> nleb M max = true ->
  (forall i j, i < n -> j < n -> i <> q -> j <> q -> nleb (d i) (d j) = true -> nleb (d j) (d i) = true -> i = j) ->
  nearest_list n q d max l -> nearest_list n q d M l' -> exists rest, l = l' ++ rest /\ Forall (fun x => nleb (snd x) M = false) rest.
Proof.
  intros HO HD DM DX HM Hdiff (N1 & I1 & F1 & S1) (N2 & I2 & F2 & S2). pose proof HO as ((Tot & Tr) & _).
  assert (Dl : Forall (fun x => D (snd x)) l).
  { rewrite Forall_forall in *. intros x Hx. rewrite (F1 x Hx). apply HD. apply (I1 (fst x)). apply in_map. exact Hx. }
  destruct (split_sorted D M l HO DM Dl S1) as (rest & E & R). exists rest. split; [|exact R]. rewrite E. f_equal.
  rewrite Forall_forall in F1, F2.
  assert (In1 : forall x, In x (filter (fun x => nleb (snd x) M) l) <-> exists i, i < n /\ i <> q /\ nleb (d i) M = true /\ x = (i, d i)).
  { intros [i e]. rewrite filter_In. cbn [snd]. split.
    - intros [Hin Hle]. pose proof (F1 _ Hin) as Ee. cbn [fst snd] in Ee. subst e. pose proof (proj1 (I1 i) (in_map fst _ _ Hin)) as (? & ? & _). exists i. auto.
    - intros (j & Hj & Hq & Hle & E1). injection E1 as -> ->. split; [|exact Hle].
      assert (Hmax : nleb (d j) max = true) by (apply (Tr (d j) M max); auto). pose proof (proj2 (I1 j) (conj Hj (conj Hq Hmax))) as Hin. apply in_map_iff in Hin as ([j' e] & E1 & Hin). cbn [fst] in E1. subst j'. pose proof (F1 _ Hin) as Ee. cbn [fst snd] in Ee. subst e. exact Hin. }
  assert (In2 : forall x, In x l' <-> exists i, i < n /\ i <> q /\ nleb (d i) M = true /\ x = (i, d i)).
  { intros [i e]. split.
    - intros Hin. pose proof (F2 _ Hin) as Ee. cbn [fst snd] in Ee. subst e. pose proof (proj1 (I2 i) (in_map fst _ _ Hin)) as (? & ? & ?). exists i. auto.
    - intros (j & Hj & Hq & Hle & E1). injection E1 as -> ->. pose proof (proj2 (I2 j) (conj Hj (conj Hq Hle))) as Hin. apply in_map_iff in Hin as ([j' e] & E1 & Hin). cbn [fst] in E1. subst j'. pose proof (F2 _ Hin) as Ee. cbn [fst snd] in Ee. subst e. exact Hin. }
  apply (sorted_perm_eq _ (fun x y : nat * N => nleb (snd x) (snd y) = true)).
  - apply NoDup_Permutation; [apply NoDup_filter; exact (NoDup_map_inv _ _ N1)|exact (NoDup_map_inv _ _ N2)|]. intros x. rewrite In1, In2. reflexivity.
  - apply filter_sorted. exact S1.
  - exact S2.
  - intros x y Hx Hy. apply In1 in Hx as (i & Hi & Hiq & _ & ->). apply In1 in Hy as (j & Hj & Hjq & _ & ->). cbn [snd]. intros H1 H2. assert (X : i = j) by (apply Hdiff; auto). subst. reflexivity.
Qed.

(** the radius is the distance of the last member *)
Lemma grow_radius (ws : weights_state N) : forall nbrs c c', cell_grow ws nbrs c = Some c' -> radius c' = radius c \/ In (radius c') (map snd nbrs).
Proof.
  induction nbrs as [|[i d] nbrs IH]; intros c c' H; cbn [cell_grow] in H; [injection H as <-; left; reflexivity|].
  destruct (weight_at ws i) as [w|]; [|discriminate]. cbv zeta in H. right. destruct (nleb n0 (nadd (weight_sum c) w)).
  - injection H as <-. left. reflexivity.
  - destruct (IH _ _ H) as [E|E]; [left; rewrite E; reflexivity|right; exact E].
Qed.
Lemma grow_limit (ws : weights_state N) M rest : Forall (fun x => nleb (snd x) M = false) rest -> forall nbrs c c', cell_grow ws (nbrs ++ rest) c = Some c' -> nleb (radius c') M = true -> cell_grow ws nbrs c = Some c'.
Proof.
  intros Hr. induction nbrs as [|[i d] nbrs IH]; intros c c' H Hc; cbn [app cell_grow] in *.
  - destruct rest as [|[i d] rest]; [exact H|]. exfalso. assert (G : In (radius c') (map snd ((i, d) :: rest))).
    { cbn [cell_grow] in H. destruct (weight_at ws i) as [w|]; [|discriminate]. cbv zeta in H. destruct (nleb n0 (nadd (weight_sum c) w)); [injection H as <-; left; reflexivity|].
      destruct (grow_radius _ _ _ _ H) as [E|E]; [left; rewrite E; reflexivity|right; exact E]. }
    apply in_map_iff in G as (x & E & Hx). rewrite Forall_forall in Hr. specialize (Hr x Hx). rewrite E in Hr. congruence.
  - destruct (weight_at ws i) as [w|]; [|discriminate]. cbv zeta in *. destruct (nleb n0 (nadd (weight_sum c) w)); [exact H|]. apply IH; assumption.
Qed.

Context (mw : bool) (near near' : search N) (M : N).
Lemma limit_step st s st1 : (exists l' rest, near s = Some (l' ++ rest) /\ near' s = Some l' /\ Forall (fun x => nleb (snd x) M = false) rest) ->
  seed_step mw near st s = Some st1 -> Forall (fun c => nleb (radius c) M = true) (snd st1) -> seed_step mw near' st s = Some st1.
Proof.
  destruct st as [ws cs]. intros (l' & rest & E1 & E2 & R) H F. unfold seed_step in *. destruct (length ws <=? s); [discriminate|]. destruct (weight_at ws s) as [w|] eqn:Ew; [|discriminate].
  destruct (nltb n0 w); [exact H|]. rewrite E2. rewrite E1 in H. unfold cell_new in *. rewrite Ew in *. destruct (cell_grow ws (l' ++ rest) (mkCell [s] n0 w)) as [c|] eqn:Ec; [|discriminate].
  destruct (cell_resample mw ws c) as [ws1|] eqn:Er; [|discriminate]. injection H as <-. cbn [snd] in F. apply Forall_app in F as [_ F]. inversion F as [|? ? Fc _]; subst.
  rewrite (grow_limit ws M rest R l' _ c Ec Fc), Er. reflexivity.
Qed.
Lemma step_cells st s st1 : seed_step mw near st s = Some st1 -> exists k, snd st1 = snd st ++ k.
Proof.
  destruct st as [ws cs]. unfold seed_step. destruct (length ws <=? s); [discriminate|]. destruct (weight_at ws s) as [w|]; [|discriminate]. destruct (nltb n0 w).
  - intros H. injection H as <-. exists []. rewrite app_nil_r. reflexivity.
  - destruct (near s) as [l|]; [|discriminate]. destruct (cell_new ws s l) as [c|]; [|discriminate]. destruct (cell_resample mw ws c) as [ws1|]; [|discriminate]. intros H. injection H as <-. exists [c]. reflexivity.
Qed.
Lemma fold_cells : forall seeds st st1, ofold (seed_step mw near) seeds st = Some st1 -> exists k, snd st1 = snd st ++ k.
Proof.
  induction seeds as [|s seeds IH]; intros st st1 H; cbn [ofold] in H; [injection H as <-; exists []; rewrite app_nil_r; reflexivity|].
  destruct (seed_step mw near st s) as [st2|] eqn:E; [|discriminate]. destruct (step_cells _ _ _ E) as (k & Ek). destruct (IH _ _ H) as (k2 & Ek2). exists (k ++ k2). rewrite Ek2, Ek, app_assoc. reflexivity.
Qed.
Lemma limit_seeds : forall seeds st st1, (forall s, In s seeds -> exists l' rest, near s = Some (l' ++ rest) /\ near' s = Some l' /\ Forall (fun x => nleb (snd x) M = false) rest) ->
  ofold (seed_step mw near) seeds st = Some st1 -> Forall (fun c => nleb (radius c) M = true) (snd st1) -> ofold (seed_step mw near') seeds st = Some st1.
Proof.
  induction seeds as [|s seeds IH]; intros st st1 Hs H F; cbn [ofold] in *; [exact H|]. destruct (seed_step mw near st s) as [st2|] eqn:E; [|discriminate].
  rewrite (limit_step st s st2 (Hs s (or_introl eq_refl)) E).
  - apply IH; [intros x Hx; apply Hs; right; exact Hx|exact H|exact F].
  - destruct (fold_cells _ _ _ H) as (k & Ek). rewrite Ek in F. apply Forall_app in F. apply F.
Qed.
End Limit.
