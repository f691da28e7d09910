(** Neighbours and seeds of a part of the events. *)
From Coq Require Import Permutation.
From Verif Require Import Base BaseProofs Num ModelEvent ModelCell ModelSeeds ModelNaive ModelResampler SpecWeights SpecSearch SpecOrder SpecRegion CellProofs RunProofs SeedsProofs OrderProofs PropsRun RegionProofs.
From Coq Require Import Lia List.
Import ListNotations.

Section Region.
Context (N : NumOps) (f : nat -> nat) (Hf : forall i j, i < j -> f i < f j).
Let f_inj := f_eq f Hf.

Lemma region_nearest n m (d d' : nat -> nat -> N) (inside : nat -> bool) max q l l' : (forall i, f i < n <-> i < m) -> (forall t, inside t = true -> exists i, f i = t) ->
  (forall i j, i < m -> j < m -> d' i j = d (f i) (f j)) -> q < m ->
  (forall i j, i < m -> j < m -> i <> q -> j <> q -> nleb (d' i q) (d' j q) = true -> nleb (d' j q) (d' i q) = true -> i = j) ->
  (forall t, t < n -> inside t = false -> nleb (d t (f q)) max = false) ->
  nearest_list n (f q) (fun i => d i (f q)) max l -> nearest_list m q (fun i => d' i q) max l' -> l = moved_nbrs N f l'.
Proof.
  intros Hlt Hsurj Hd Hq Hdiff Hfar (N1 & I1 & F1 & S1) (N2 & I2 & F2 & S2). rewrite Forall_forall in F1, F2.
  assert (In2 : forall x, In x (moved_nbrs N f l') <-> exists i, i < m /\ i <> q /\ nleb (d' i q) max = true /\ x = (f i, d' i q)).
  { intros x. unfold moved_nbrs. rewrite in_map_iff. split.
    - intros ([i e] & <- & Hin). pose proof (F2 _ Hin) as E. cbn [fst snd] in *. subst e. exists i. pose proof (proj1 (I2 i) (in_map fst _ _ Hin)) as (? & ? & ?). auto.
    - intros (i & H1 & H2 & H3 & ->). pose proof (proj2 (I2 i) (conj H1 (conj H2 H3))) as Hin. apply in_map_iff in Hin as ([i' e] & E & Hin).
      cbn [fst] in E. subst i'. pose proof (F2 _ Hin) as E. cbn [fst snd] in *. subst e. exists (i, d' i q). auto. }
  assert (In1 : forall x, In x l <-> exists i, i < m /\ i <> q /\ nleb (d' i q) max = true /\ x = (f i, d' i q)).
  { intros x. split.
    - intros Hin. pose proof (F1 _ Hin) as E. destruct x as [i' e]. cbn [fst snd] in *. subst e.
      pose proof (proj1 (I1 i') (in_map fst _ _ Hin)) as (Hi1 & Hi2 & Hi3). destruct (inside i') eqn:Ei; [|rewrite (Hfar i' Hi1 Ei) in Hi3; discriminate]. destruct (Hsurj i' Ei) as (i & <-).
      apply Hlt in Hi1. exists i. rewrite Hd by assumption. split; [exact Hi1|]. split; [intros ->; congruence|]. auto.
    - intros (i & H1 & H2 & H3 & ->). rewrite Hd in * by assumption. assert (Hn : f i <> f q) by (intros E; apply f_inj in E; auto).
      pose proof (proj2 (I1 (f i)) (conj (proj2 (Hlt i) H1) (conj Hn H3))) as Hin. apply in_map_iff in Hin as ([i' e] & E & Hin).
      cbn [fst] in E. subst i'. pose proof (F1 _ Hin) as E. cbn [fst snd] in *. subst e. exact Hin. }
  apply (sorted_perm_eq _ (fun x y : nat * N => nleb (snd x) (snd y) = true)).
  - apply NoDup_Permutation.
    + exact (NoDup_map_inv _ _ N1).
    + apply (NoDup_map_inv fst). unfold moved_nbrs. rewrite map_map. cbn [fst]. rewrite <- map_map. apply FinFun.Injective_map_NoDup; [intros x y; apply f_inj|exact N2].
    + intros x. rewrite In1, In2. reflexivity.
  - exact S1.
  - apply StronglySorted_map_inj. exact S2.
  - intros x y Hx Hy. apply In1 in Hx as (i & Hi & Hiq & _ & ->). apply In1 in Hy as (j & Hj & Hjq & _ & ->). cbn [snd]. intros H1 H2.
    assert (E : i = j); [|subst; reflexivity]. apply Hdiff; auto.
Qed.

Lemma filter_sorted A (Rel : A -> A -> Prop) (p : A -> bool) l : StronglySorted Rel l -> StronglySorted Rel (filter p l).
Proof.
  induction 1 as [|a l Hl IH Ha]; cbn [filter]; [constructor|]. destruct (p a); [|exact IH]. constructor; [exact IH|]. rewrite Forall_forall in *. intros x Hx. apply filter_In in Hx as [Hx _]. auto.
Qed.

Lemma region_select (D : N -> Prop) sort strategy (U A : list (list N)) (inside : nat -> bool) seeds : sort_ok sort -> order_on N D -> (forall i w, central_weight U i w -> D w) ->
  (forall i, nth_error U (f i) = nth_error A i) -> (forall i, i < length A -> inside (f i) = true) -> (forall t, inside t = true -> exists i, f i = t) ->
  (strategy = Next \/ forall i j v w, central_weight U i v -> central_weight U j w -> nltb v n0 = true -> nltb w n0 = true -> nleb v w = true -> nleb w v = true -> i = j) ->
  select_seeds sort strategy U = Some seeds -> exists seeds', select_seeds sort strategy A = Some seeds' /\ filter inside seeds = map f seeds'.
Proof.
  intros Hsort Hord HD Hp Hin Hout Hneg H.
  assert (Hc : forall i w, central_weight A i w <-> central_weight U (f i) w) by (intros i w; unfold central_weight; rewrite Hp; reflexivity).
  assert (HDA : forall i w, central_weight A i w -> D w) by (intros i w C; apply Hc in C; eauto).
  assert (Hex : exists seeds', select_seeds sort strategy A = Some seeds').
  { apply (proj2 (C12_select_seeds_succeeds N sort strategy A)). apply Forall_forall. intros w Hw. apply In_nth_error in Hw as (i & Ei). rewrite <- Hp in Ei. apply nth_error_In in Ei.
    pose proof (proj1 (C12_select_seeds_succeeds N sort strategy U) (ex_intro _ seeds H)) as G. rewrite Forall_forall in G. exact (G w Ei). }
  destruct Hex as (seeds' & H'). exists seeds'. split; [exact H'|].
  destruct (C12_select_seeds N sort D strategy U seeds Hsort Hord HD H) as (N1 & I1 & X1 & M1 & L1). destruct (C12_select_seeds N sort D strategy A seeds' Hsort Hord HDA H') as (N2 & I2 & X2 & M2 & L2).
  assert (Hp' : Permutation (filter inside seeds) (map f seeds')).
  { apply NoDup_Permutation; [apply NoDup_filter; exact N1|apply FinFun.Injective_map_NoDup; [intros x y; apply f_inj|exact N2]|].
    intros i. rewrite filter_In, I1, in_map_iff. split.
    - intros ((w & C & Hw) & Hi). destruct (Hout i Hi) as (j & <-). exists j. split; [reflexivity|]. apply I2. exists w. split; [apply Hc; exact C|exact Hw].
    - intros (j & <- & Hj). apply I2 in Hj as (w & C & Hw). split; [exists w; split; [apply Hc; exact C|exact Hw]|]. apply Hin. destruct C as (o & E). apply nth_error_Some. congruence. }
  assert (Hanti : forall Rel : N -> N -> bool, (forall a b, Rel a b = true -> Rel b a = true -> nleb a b = true /\ nleb b a = true) -> strategy <> Next ->
    forall x y, In x (filter inside seeds) -> In y (filter inside seeds) ->
    (forall wi wj, central_weight U x wi -> central_weight U y wj -> Rel wi wj = true) ->
    (forall wi wj, central_weight U y wi -> central_weight U x wj -> Rel wi wj = true) -> x = y).
  { intros Rel Ha Hst x y Hx Hy R1 R2. apply filter_In in Hx as [Hx _]. apply filter_In in Hy as [Hy _]. apply I1 in Hx as (wx & Cx & Lx). apply I1 in Hy as (wy & Cy & Ly).
    destruct Hneg as [?|Hneg]; [contradiction|]. destruct (Ha wx wy); auto. apply (Hneg x y wx wy); assumption. }
  assert (Hren : forall Rel : N -> N -> bool,
    StronglySorted (fun i j => forall wi wj, central_weight A i wi -> central_weight A j wj -> Rel wi wj = true) seeds' ->
    StronglySorted (fun i j => forall wi wj, central_weight U i wi -> central_weight U j wj -> Rel wi wj = true) (map f seeds')).
  { intros Rel Hss. apply StronglySorted_map_inj. clear -Hss Hc. induction Hss as [|a l Hl IH Ha]; constructor; [exact IH|]. eapply Forall_impl; [|exact Ha]. cbn. intros b Hb wi wj Ci Cj. apply Hb; apply Hc; assumption. }
  destruct strategy.
  - apply (sorted_perm_eq _ _ _ _ Hp' (filter_sorted _ _ inside _ (L1 eq_refl)) (Hren (fun a b => nleb b a) (L2 eq_refl))). apply (Hanti (fun a b => nleb b a)); [auto|discriminate].
  - apply (sorted_perm_eq _ _ _ _ Hp' (filter_sorted _ _ inside _ (M1 eq_refl)) (Hren nleb (M2 eq_refl))). apply (Hanti nleb); [auto|discriminate].
  - apply (sorted_perm_eq _ lt _ _ Hp' (filter_sorted _ _ inside _ (X1 eq_refl))); [|intros; lia]. apply StronglySorted_map_inj. pose proof (X2 eq_refl) as Hss.
    clear -Hss Hf. induction Hss as [|a l Hl IH Ha]; constructor; [exact IH|]. eapply Forall_impl; [|exact Ha]. cbn. intros b. apply Hf.
Qed.
End Region.
