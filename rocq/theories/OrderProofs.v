(** The order of the events is irrelevant if there are no ties. *)
From Coq Require Import Reals Lra Permutation.
From Verif Require Import Base BaseProofs Num ModelEvent ModelCell ModelSeeds ModelNaive ModelResampler SpecWeights SpecSearch SpecOrder SumProofs
  CellProofs RunProofs SeedsProofs RunProofs2 PropsCell PropsRun.

Lemma sorted_perm_eq A (Rel : A -> A -> Prop) (l m : list A) :
  Permutation l m -> StronglySorted Rel l -> StronglySorted Rel m ->
  (forall x y, In x l -> In y l -> Rel x y -> Rel y x -> x = y) -> l = m.
Proof.
  revert m. induction l as [|a l IH]; intros m Hp Hl Hm Ha.
  - apply Permutation_nil in Hp. auto.
  - destruct m as [|b m]; [apply Permutation_sym in Hp; apply Permutation_nil in Hp; discriminate|].
    inversion Hl as [|? ? Hl' Fl]. inversion Hm as [|? ? Hm' Fm]. subst.
    assert (E : a = b).
    { assert (Hb : In b (a :: l)) by (eapply Permutation_in; [apply Permutation_sym; exact Hp|left; auto]).
      assert (Ha' : In a (b :: m)) by (eapply Permutation_in; [exact Hp|left; auto]).
      destruct Hb as [Hb|Hb]; [auto|]. destruct Ha' as [Ha'|Ha']; [auto|].
      apply Ha; [left; auto|right; auto|exact (proj1 (Forall_forall _ _) Fl b Hb)|exact (proj1 (Forall_forall _ _) Fm a Ha')]. }
    subst b. f_equal. apply IH; auto.
    + apply Permutation_cons_inv in Hp. exact Hp.
    + intros x y Hx Hy. apply Ha; right; auto.
Qed.

Lemma StronglySorted_map_inj A B (f : A -> B) (Rel : B -> B -> Prop) l :
  StronglySorted (fun x y => Rel (f x) (f y)) l -> StronglySorted Rel (map f l).
Proof.
  induction 1 as [|a l Hl IH Hf]; [constructor|]. cbn. constructor; [exact IH|].
  apply Forall_forall. intros y Hy. apply in_map_iff in Hy as (x & <- & Hx). exact (proj1 (Forall_forall _ _) Hf x Hx).
Qed.

Section Order.
Context (f : nat -> nat) (f_inj : forall i j, f i = f j -> i = j).

Definition renamed {A} (l l' : list A) : Prop := length l = length l' /\ forall i, nth_error l' i = nth_error l (f i).

Lemma renamed_lt A (l l' : list A) i : renamed l l' -> (i < length l' <-> f i < length l).
Proof. intros [_ H]. rewrite <- !nth_error_Some, H. reflexivity. Qed.

Lemma renamed_map A B (g : A -> B) (l l' : list A) : renamed l l' -> renamed (map g l) (map g l').
Proof. intros [H1 H2]. split; [rewrite !map_length; exact H1|]. intros i. rewrite !nth_error_map, H2. reflexivity. Qed.

(** every position has a new one *)
Lemma renamed_surj A (l l' : list A) i : renamed l l' -> i < length l -> exists j, j < length l' /\ f j = i.
Proof.
  intros Hr Hi. assert (Hin : In i (map f (seq 0 (length l')))).
  { assert (Hincl : incl (seq 0 (length l)) (map f (seq 0 (length l')))).
    { apply NoDup_length_incl.
      - apply FinFun.Injective_map_NoDup; [intros x y; apply f_inj|apply seq_NoDup].
      - rewrite map_length, !seq_length. destruct Hr. lia.
      - intros x Hx. apply in_map_iff in Hx as (j & <- & Hj). apply in_seq in Hj. apply in_seq. split; [lia|].
        apply (renamed_lt _ _ _ _ Hr). lia. }
    apply Hincl. apply in_seq. lia. }
  apply in_map_iff in Hin as (j & <- & Hj). apply in_seq in Hj. exists j. split; [lia|reflexivity].
Qed.

Lemma renamed_perm A (l l' : list A) : renamed l l' -> Permutation l l'.
Proof. intros [H1 H2]. apply Permutation_nth_error. split; [exact H1|]. exists f. split; [intros x y; apply f_inj|exact H2]. Qed.

Definition rename_cell (c : Cell RN) : Cell RN := mkCell (map f (members c)) (radius c) (weight_sum c).
Definition rename_nbrs (l : list (nat * R)) : list (nat * R) := map (fun x => (f (fst x), snd x)) l.

Lemma renamed_weight (ws ws' : list (list R)) i : renamed ws ws' -> weight_at (N := RN) ws' i = weight_at (N := RN) ws (f i).
Proof. intros [_ H]. unfold weight_at. rewrite H. reflexivity. Qed.

Lemma renamed_grow (ws ws' : list (list R)) nbrs : renamed ws ws' -> forall c,
  cell_grow (N := RN) ws (rename_nbrs nbrs) (rename_cell c) = option_map rename_cell (cell_grow (N := RN) ws' nbrs c).
Proof.
  intros Hr. induction nbrs as [|[i d] nbrs IH]; intros c; [reflexivity|]. cbn [rename_nbrs map cell_grow fst snd].
  rewrite (renamed_weight _ _ _ Hr). destruct (weight_at (N := RN) ws (f i)) as [w|]; [|reflexivity]. cbn zeta.
  cbn [rename_cell weight_sum members].
  set (c' := mkCell (members c ++ [i]) d (nadd (weight_sum c) w) : Cell RN).
  replace (mkCell (map f (members c) ++ [f i]) d (nadd (weight_sum c) w) : Cell RN) with (rename_cell c')
    by (unfold rename_cell, c'; cbn; rewrite map_app; reflexivity).
  destruct (nleb n0 (nadd (weight_sum c) w)); [reflexivity|apply IH].
Qed.
Lemma renamed_new (ws ws' : list (list R)) seed nbrs : renamed ws ws' ->
  cell_new (N := RN) ws (f seed) (rename_nbrs nbrs) = option_map rename_cell (cell_new (N := RN) ws' seed nbrs).
Proof.
  intros Hr. unfold cell_new. rewrite (renamed_weight _ _ _ Hr). destruct (weight_at (N := RN) ws (f seed)) as [w|]; [|reflexivity].
  exact (renamed_grow _ _ nbrs Hr (mkCell [seed] n0 w)).
Qed.

Lemma renamed_comp (ws ws' : list (list R)) i k : renamed ws ws' -> comp ws' i k = comp ws (f i) k.
Proof.
  intros [_ H]. unfold comp. specialize (H i). f_equal.
  destruct (nth_error ws' i) as [w|] eqn:E'; destruct (nth_error ws (f i)) as [v|] eqn:E; try discriminate.
  - injection H as <-. rewrite (nth_error_nth _ _ _ E'), (nth_error_nth _ _ _ E). reflexivity.
  - apply nth_error_None in E', E. rewrite !nth_overflow by assumption. reflexivity.
Qed.

Lemma nth_error_comp (ws vs : list (list R)) i j : i < length ws -> j < length vs ->
  length (nth i ws []) = length (nth j vs []) -> (forall k, comp ws i k = comp vs j k) -> nth_error ws i = nth_error vs j.
Proof.
  intros Hi Hj Hl Hk. rewrite (nth_error_nth' ws [] Hi), (nth_error_nth' vs [] Hj). f_equal.
  apply (nth_ext _ _ 0%R 0%R Hl). intros k _. apply Hk.
Qed.

Lemma renamed_resample mw nw (ws ws' ws1 : list (list R)) (c : Cell RN) : renamed ws ws' -> shaped mw nw ws -> members c <> [] ->
  cell_resample (N := RN) mw ws (rename_cell c) = Some ws1 ->
  exists ws1', cell_resample (N := RN) mw ws' c = Some ws1' /\ renamed ws1 ws1' /\ shaped mw nw ws1.
Proof.
  intros Hr (Hn & Hmw & Hu) Hne H.
  assert (Hwf : wf_weights mw ws) by (intros E; rewrite <- (Hmw E); exact Hu).
  assert (Hu' : uniform nw ws') by (unfold uniform in *; eapply Permutation_Forall; [exact (renamed_perm _ _ _ Hr)|exact Hu]).
  assert (Hwf' : wf_weights mw ws') by (intros E; rewrite <- (Hmw E); exact Hu').
  destruct (C02_resample_frame RN mw ws _ ws1 H) as (Hnd & Hlt & _ & _). cbn [rename_cell members] in Hnd, Hlt.
  assert (Hnd' : NoDup (members c)) by (apply NoDup_map_inv in Hnd; exact Hnd).
  assert (Hlt' : forall i, In i (members c) -> exists w, nth_error ws' i = Some w /\ length w = nw).
  { intros i Hi. assert (Hl : i < length ws') by (apply (renamed_lt _ _ _ _ Hr), Hlt, in_map, Hi).
    destruct (nth_error ws' i) as [w|] eqn:E; [|apply nth_error_None in E; lia]. exists w. split; [reflexivity|].
    exact (proj1 (Forall_forall _ _) Hu' w (nth_error_In _ _ E)). }
  assert (Hex : exists ws1', cell_resample (N := RN) mw ws' c = Some ws1').
  { destruct mw.
    - exact (C13_equal_succeeds RN ws' c nw Hnd' Hne Hlt').
    - apply (C13_single_succeeds RN ws' c Hnd'). intros i Hi. destruct (Hlt' i Hi) as (w & E & Hl). rewrite (Hmw eq_refl) in Hl.
      destruct w as [|x [|? ?]]; try discriminate. exists x. exact E. }
  destruct Hex as [ws1' H']. exists ws1'. split; [exact H'|].
  destruct (C02_resample_mean mw ws _ ws1 Hwf H) as (L1 & L2 & L3 & L4).
  destruct (C02_resample_mean mw ws' _ ws1' Hwf' H') as (L1' & L2' & L3' & L4').
  cbn [rename_cell members] in L3, L4. destruct Hr as [Hrl Hrn]. assert (Hr : renamed ws ws') by (split; assumption). split.
  - split; [congruence|]. intros i. destruct (Nat.lt_ge_cases i (length ws')) as [Hi|Hi].
    + assert (Hfi : f i < length ws) by (apply (renamed_lt _ _ _ _ Hr); exact Hi).
      destruct (in_dec Nat.eq_dec i (members c)) as [Hin|Hin].
      * apply nth_error_comp; [lia|lia| |].
        { rewrite L2, L2'. f_equal. specialize (Hrn i). rewrite (nth_error_nth' ws' [] Hi), (nth_error_nth' ws [] Hfi) in Hrn. congruence. }
        intros k. rewrite L3' by exact Hin. rewrite L3 by (apply in_map; exact Hin). rewrite map_map. f_equal. apply map_ext.
        intros j. apply renamed_comp. exact Hr.
      * rewrite L4' by exact Hin. rewrite L4; [apply Hrn|]. intros Hm. apply in_map_iff in Hm as (j & E & Hj). apply f_inj in E. congruence.
    + assert (Hfi : ~ f i < length ws) by (intros E; apply (renamed_lt _ _ _ _ Hr) in E; lia).
      rewrite (proj2 (nth_error_None _ _)) by lia. symmetry. apply nth_error_None. lia.
  - split; [exact Hn|]. split; [exact Hmw|]. apply Forall_forall. intros w Hw. apply In_nth_error in Hw as [i Hi].
    assert (Hl : i < length ws) by (rewrite <- L1; apply nth_error_Some; congruence).
    rewrite <- (nth_error_nth _ _ [] Hi), L2.
    exact (proj1 (Forall_forall _ _) Hu _ (nth_In ws [] Hl)).
Qed.

Lemma members_new (ws : list (list R)) seed nbrs (c : Cell RN) : cell_new (N := RN) ws seed nbrs = Some c -> members c <> [].
Proof.
  intros H. destruct (C01_cell RN ws seed nbrs c H) as (w0 & k & wts & _ & _ & _ & E & _). rewrite E. discriminate.
Qed.

Section Run.
Context (mw : bool) (nw n : nat) (nearest nearest' : nat -> option (list (nat * R)))
  (Hnear : forall q, q < n -> exists l, nearest' q = Some l /\ nearest (f q) = Some (rename_nbrs l)).

Lemma renamed_step ws ws' cells cells' seed r : renamed ws ws' -> shaped mw nw ws -> length ws' = n -> seed < n ->
  seed_step (N := RN) mw nearest (ws, cells) (f seed) = Some r ->
  exists r', seed_step (N := RN) mw nearest' (ws', cells') seed = Some r' /\ renamed (fst r) (fst r') /\ shaped mw nw (fst r) /\ length (fst r') = n.
Proof.
  intros Hr Hs Hl Hlt H. unfold seed_step in *.
  assert (Hf : f seed < length ws) by (apply (renamed_lt _ _ _ _ Hr); lia).
  rewrite (proj2 (Nat.leb_gt _ _)) in H by exact Hf. rewrite (proj2 (Nat.leb_gt _ _)) by lia.
  rewrite (renamed_weight _ _ _ Hr). destruct (weight_at (N := RN) ws (f seed)) as [w|]; [|discriminate].
  destruct (nltb n0 w).
  { injection H as <-. exists (ws', cells'). cbn [fst]. auto. }
  destruct (Hnear seed Hlt) as (l & E1 & E2). rewrite E1. rewrite E2 in H.
  rewrite (renamed_new _ _ _ _ Hr) in H. destruct (cell_new (N := RN) ws' seed l) as [c|] eqn:Ec; [|discriminate]. cbn [option_map] in H.
  destruct (cell_resample mw ws (rename_cell c)) as [ws1|] eqn:E; [|discriminate]. injection H as <-.
  destruct (renamed_resample mw nw ws ws' ws1 c Hr Hs (members_new _ _ _ _ Ec) E) as (ws1' & E' & Hr1 & Hs1).
  rewrite E'. exists (ws1', cells' ++ [c]). cbn [fst]. split; [reflexivity|]. split; [exact Hr1|]. split; [exact Hs1|].
  destruct (C02_resample_frame RN mw ws' c ws1' E') as (_ & _ & L & _). lia.
Qed.

Lemma renamed_run seeds : forall ws ws' cells cells' r, renamed ws ws' -> shaped mw nw ws -> length ws' = n -> Forall (fun s => s < n) seeds ->
  ofold (seed_step (N := RN) mw nearest) (map f seeds) (ws, cells) = Some r ->
  exists r', ofold (seed_step (N := RN) mw nearest') seeds (ws', cells') = Some r' /\ renamed (fst r) (fst r') /\ length (fst r') = n.
Proof.
  induction seeds as [|s seeds IH]; intros ws ws' cells cells' r Hr Hs Hl Hlt H.
  - cbn in *. injection H as <-. exists (ws', cells'). split; [reflexivity|split; [exact Hr|exact Hl]].
  - apply Forall_cons_iff in Hlt as [Hs0 Hlt']. cbn [map ofold] in *.
    destruct (seed_step mw nearest (ws, cells) (f s)) as [[ws1 cells1]|] eqn:E; [|discriminate].
    destruct (renamed_step ws ws' cells cells' s _ Hr Hs Hl Hs0 E) as ([ws1' cells1'] & E' & Hr1 & Hs1 & Hl1).
    rewrite E'. cbn [fst] in *. apply (IH ws1 ws1' cells1 cells1' r Hr1 Hs1 Hl1 Hlt' H).
Qed.
End Run.

(** the answers of the two searches *)
Lemma renamed_nearest n n' (d d' : nat -> nat -> R) max q l l' : n = n' ->
  (forall i, i < n <-> f i < n) -> (forall i, i < n -> exists j, j < n /\ f j = i) ->
  (forall i j, i < n -> j < n -> d' i j = d (f i) (f j)) -> q < n ->
  (forall i j, i < n -> j < n -> i <> q -> j <> q -> d' i q = d' j q -> i = j) ->
  nearest_list (N := RN) n (f q) (fun i => d i (f q)) max l -> nearest_list (N := RN) n' q (fun i => d' i q) max l' ->
  l = rename_nbrs l'.
Proof.
  intros <- Hlt Hsurj Hd Hq Hdiff (N1 & I1 & F1 & S1) (N2 & I2 & F2 & S2).
  rewrite Forall_forall in F1, F2.
  assert (In2 : forall x, In x (rename_nbrs l') <-> exists i, i < n /\ i <> q /\ nleb (d' i q) max = true /\ x = (f i, d' i q)).
  { intros x. unfold rename_nbrs. rewrite in_map_iff. split.
    - intros ([i e] & <- & Hin). pose proof (F2 _ Hin) as E. cbn [fst snd] in *. subst e. exists i.
      pose proof (proj1 (I2 i) (in_map fst _ _ Hin)) as (? & ? & ?). auto.
    - intros (i & H1 & H2 & H3 & ->). pose proof (proj2 (I2 i) (conj H1 (conj H2 H3))) as Hin. apply in_map_iff in Hin as ([i' e] & E & Hin).
      cbn [fst] in E. subst i'. pose proof (F2 _ Hin) as E. cbn [fst snd] in *. subst e. exists (i, d' i q). auto. }
  assert (In1 : forall x, In x l <-> exists i, i < n /\ i <> q /\ nleb (d' i q) max = true /\ x = (f i, d' i q)).
  { intros x. split.
    - intros Hin. pose proof (F1 _ Hin) as E. destruct x as [i' e]. cbn [fst snd] in *. subst e.
      pose proof (proj1 (I1 i') (in_map fst _ _ Hin)) as (Hi1 & Hi2 & Hi3). destruct (Hsurj i' Hi1) as (i & Hi & <-).
      exists i. rewrite Hd by assumption. split; [exact Hi|]. split; [intros ->; congruence|]. auto.
    - intros (i & H1 & H2 & H3 & ->). rewrite Hd in * by assumption.
      assert (Hn : f i <> f q) by (intros E; apply f_inj in E; auto).
      pose proof (proj2 (I1 (f i)) (conj (proj1 (Hlt i) H1) (conj Hn H3))) as Hin. apply in_map_iff in Hin as ([i' e] & E & Hin).
      cbn [fst] in E. subst i'. pose proof (F1 _ Hin) as E. cbn [fst snd] in *. subst e. exact Hin. }
  apply (sorted_perm_eq _ (fun x y : nat * R => Rleb (snd x) (snd y) = true)).
  - apply NoDup_Permutation.
    + exact (NoDup_map_inv _ _ N1).
    + apply (NoDup_map_inv fst). unfold rename_nbrs. rewrite map_map. cbn [fst]. rewrite <- map_map.
      apply FinFun.Injective_map_NoDup; [intros x y; apply f_inj|exact N2].
    + intros x. rewrite In1, In2. reflexivity.
  - exact S1.
  - apply StronglySorted_map_inj. exact S2.
  - intros x y Hx Hy. apply In1 in Hx as (i & Hi & Hiq & _ & ->). apply In1 in Hy as (j & Hj & Hjq & _ & ->). cbn [snd]. intros H1 H2.
    assert (E : i = j); [|subst; reflexivity]. apply Hdiff; auto. apply Rleb_true in H1, H2. lra.
Qed.

(** the seeds *)
Lemma renamed_central (ws ws' : list (list R)) i w : renamed ws ws' -> (central_weight ws' i w <-> central_weight ws (f i) w).
Proof. intros [_ H]. unfold central_weight. rewrite H. reflexivity. Qed.

Lemma renamed_seeds sort strategy (ws ws' : list (list R)) seeds : sort_ok sort -> renamed ws ws' -> strategy <> Next ->
  (forall i j w, central_weight ws i w -> central_weight ws j w -> (w < 0)%R -> i = j) ->
  select_seeds (N := RN) sort strategy ws = Some seeds ->
  exists seeds', select_seeds (N := RN) sort strategy ws' = Some seeds' /\ seeds = map f seeds' /\ Forall (fun s => s < length ws') seeds'.
Proof.
  intros Hsort Hr Hst Hdiff H.
  assert (Hex : exists seeds', select_seeds (N := RN) sort strategy ws' = Some seeds').
  { apply (proj2 (C12_select_seeds_succeeds RN sort strategy ws')).
    eapply Permutation_Forall; [exact (renamed_perm _ _ _ Hr)|].
    apply (proj1 (C12_select_seeds_succeeds RN sort strategy ws)). exists seeds. exact H. }
  destruct Hex as [seeds' H']. exists seeds'. split; [exact H'|].
  destruct (C12_select_seeds RN sort (fun _ => True) strategy ws seeds Hsort RN_order (fun _ _ _ => I) H) as (N1 & I1 & _ & M1 & L1).
  destruct (C12_select_seeds RN sort (fun _ => True) strategy ws' seeds' Hsort RN_order (fun _ _ _ => I) H') as (N2 & I2 & _ & M2 & L2).
  assert (Hlt : Forall (fun s => s < length ws') seeds').
  { apply Forall_forall. intros s Hs. apply I2 in Hs as (w & (o & E) & _). apply nth_error_Some. intros E0. pose proof (eq_trans (eq_sym E0) E). discriminate. }
  split; [|exact Hlt].
  assert (Hp : Permutation seeds (map f seeds')).
  { apply NoDup_Permutation; [exact N1|apply FinFun.Injective_map_NoDup; [intros x y; apply f_inj|exact N2]|].
    intros i. rewrite I1, in_map_iff. split.
    - intros (w & Hc & Hw). assert (Hi : i < length ws) by (destruct Hc as (o & E); apply nth_error_Some; intros E0; pose proof (eq_trans (eq_sym E0) E); discriminate).
      destruct (renamed_surj _ _ _ _ Hr Hi) as (j & Hj & <-). exists j. split; [reflexivity|]. apply I2. exists w.
      split; [apply (renamed_central _ _ _ _ Hr); exact Hc|exact Hw].
    - intros (j & <- & Hj). apply I2 in Hj as (w & Hc & Hw). exists w. split; [apply (renamed_central _ _ _ _ Hr); exact Hc|exact Hw]. }
  assert (Hneg : forall i, In i seeds -> exists w, central_weight ws i w /\ (w < 0)%R).
  { intros i Hi. apply I1 in Hi as (w & Hc & Hw). exists w. split; [exact Hc|]. apply Rltb_true. exact Hw. }
  assert (Hanti : forall Rel : R -> R -> bool, (forall a b, Rel a b = true -> Rel b a = true -> a = b) ->
    forall x y, In x seeds -> In y seeds ->
    (forall wi wj, central_weight ws x wi -> central_weight ws y wj -> Rel wi wj = true) ->
    (forall wi wj, central_weight ws y wi -> central_weight ws x wj -> Rel wi wj = true) -> x = y).
  { intros Rel Ha x y Hx Hy H1 H2. destruct (Hneg x Hx) as (wx & Cx & Lx). destruct (Hneg y Hy) as (wy & Cy & Ly).
    assert (E : wx = wy) by (apply Ha; auto). subst wy. apply (Hdiff x y wx Cx Cy Lx). }
  assert (Hren : forall Rel : R -> R -> bool,
    StronglySorted (fun i j => forall wi wj, central_weight ws' i wi -> central_weight ws' j wj -> Rel wi wj = true) seeds' ->
    StronglySorted (fun i j => forall wi wj, central_weight ws i wi -> central_weight ws j wj -> Rel wi wj = true) (map f seeds')).
  { intros Rel Hss. apply StronglySorted_map_inj.
    assert (Hext : forall l, StronglySorted (fun i j => forall wi wj, central_weight ws' i wi -> central_weight ws' j wj -> Rel wi wj = true) l ->
      StronglySorted (fun i j => forall wi wj, central_weight ws (f i) wi -> central_weight ws (f j) wj -> Rel wi wj = true) l).
    { induction 1 as [|a l Hl IH Ha]; constructor; [exact IH|]. eapply Forall_impl; [|exact Ha]. cbn. intros b Hb wi wj Ci Cj.
      apply Hb; apply (renamed_central _ _ _ _ Hr); assumption. }
    apply Hext. exact Hss. }
  destruct strategy; [| |congruence].
  - apply (sorted_perm_eq _ _ _ _ Hp (L1 eq_refl) (Hren (fun a b => Rleb b a) (L2 eq_refl))).
    apply (Hanti (fun a b => Rleb b a)). intros a b. rewrite !Rleb_true. lra.
  - apply (sorted_perm_eq _ _ _ _ Hp (M1 eq_refl) (Hren Rleb (M2 eq_refl))).
    apply (Hanti Rleb). intros a b. rewrite !Rleb_true. lra.
Qed.

Lemma renamed_with_weights (evs evs' : list (Event RN)) (ws ws' : list (list R)) : renamed evs evs' -> renamed ws ws' -> length ws = length evs ->
  renamed (with_weights (N := RN) evs ws) (with_weights (N := RN) evs' ws').
Proof.
  intros [H1 H2] [H3 H4] H5. unfold with_weights. apply renamed_map. split.
  - rewrite !combine_length. cbn in *. congruence.
  - assert (Hc : forall (A B : Type) (l : list A) (m : list B) i, length l = length m ->
      nth_error (combine l m) i = match nth_error l i, nth_error m i with Some a, Some b => Some (a, b) | _, _ => None end).
    { clear. intros A B l. induction l as [|a l IH]; intros [|b m] [|i] H; try discriminate; try reflexivity. cbn. apply IH. injection H as H. exact H. }
    intros i. rewrite !Hc by (cbn in *; congruence). rewrite H2, H4. reflexivity.
Qed.

Theorem renamed_resampling mw nw sort strategy (algo algo' : search_algo RN) dist max (evs evs' : list (Event RN)) r cells :
  sort_ok sort -> renamed evs evs' -> strategy <> Next -> shaped mw nw (map ev_weights evs) ->
  negative_weights_differ evs -> distances_differ dist evs ->
  answers (length evs) (dist_wrapper dist evs) max (algo (length evs) (dist_wrapper dist evs) max) ->
  answers (length evs') (dist_wrapper dist evs') max (algo' (length evs') (dist_wrapper dist evs') max) ->
  resampler_resample mw sort strategy algo dist max evs = Some (r, cells) ->
  exists r' cells', resampler_resample mw sort strategy algo' dist max evs' = Some (r', cells') /\ renamed r r'.
Proof.
  intros Hsort Hr Hst Hsh Hneg Hdist Ha Ha' H. unfold resampler_resample in *.
  pose proof (renamed_map _ _ ev_weights _ _ Hr) as Hrw. set (ws := map ev_weights evs) in *. set (ws' := map ev_weights evs') in *.
  destruct (select_seeds sort strategy ws) as [seeds|] eqn:Es; [|discriminate].
  assert (Hd : forall i j w, central_weight ws i w -> central_weight ws j w -> (w < 0)%R -> i = j).
  { intros i j w (o & Ei) (o' & Ej) Hw. unfold ws in *. rewrite nth_error_map in Ei, Ej.
    destruct (nth_error evs i) as [a|] eqn:Ea; [|discriminate]. destruct (nth_error evs j) as [b|] eqn:Eb; [|discriminate].
    injection Ei as Ei. injection Ej as Ej. apply (Hneg i j a b w Ea Eb); [rewrite Ei; reflexivity|rewrite Ej; reflexivity|].
    apply Rltb_true. exact Hw. }
  destruct (renamed_seeds sort strategy ws ws' seeds Hsort Hrw Hst Hd Es) as (seeds' & Es' & -> & Hlt).
  rewrite Es'.
  destruct (resample_seeds mw (algo (length evs) (dist_wrapper dist evs) max) (map f seeds') ws) as [[ws1 cs]|] eqn:E; [|discriminate].
  injection H as <- <-. unfold resample_seeds in E.
  assert (Hll : length evs = length evs') by (destruct Hr; assumption).
  assert (Hl' : length ws' = length evs) by (unfold ws'; rewrite map_length; lia).
  assert (Hdw : forall i j, i < length evs -> j < length evs -> dist_wrapper dist evs' i j = dist_wrapper dist evs (f i) (f j)).
  { intros i j Hi Hj. unfold dist_wrapper. destruct Hr as [_ Hrn]. rewrite !Hrn. reflexivity. }
  assert (Hfl : forall i, i < length evs <-> f i < length evs).
  { intros i. rewrite <- (renamed_lt _ _ _ i Hr), Hll. reflexivity. }
  assert (Hfs : forall i, i < length evs -> exists j, j < length evs /\ f j = i).
  { intros i Hi. destruct (renamed_surj _ _ _ _ Hr Hi) as (j & Hj & Ej). exists j. split; [lia|exact Ej]. }
  assert (Hnear : forall q, q < length evs -> exists l, algo' (length evs') (dist_wrapper dist evs') max q = Some l /\
      algo (length evs) (dist_wrapper dist evs) max (f q) = Some (rename_nbrs l)).
  { intros q Hq. destruct (Ha (f q) (proj1 (Hfl q) Hq)) as (l & El & Hl). destruct (Ha' q ltac:(lia)) as (l' & El' & Hl2).
    exists l'. split; [exact El'|]. rewrite El. f_equal.
    apply (renamed_nearest (length evs) (length evs') (dist_wrapper dist evs) (dist_wrapper dist evs') max q l l' Hll Hfl Hfs Hdw Hq); [|exact Hl|exact Hl2].
    intros i j Hi Hj Hiq Hjq. rewrite !Hdw by assumption. unfold dist_wrapper.
    pose proof (proj1 (Hfl q) Hq) as Fq. pose proof (proj1 (Hfl i) Hi) as Fi. pose proof (proj1 (Hfl j) Hj) as Fj.
    destruct (nth_error evs (f q)) as [a|] eqn:Eq; [|apply nth_error_None in Eq; lia].
    destruct (nth_error evs (f i)) as [b|] eqn:Ei; [|apply nth_error_None in Ei; lia].
    destruct (nth_error evs (f j)) as [c|] eqn:Ej; [|apply nth_error_None in Ej; lia].
    intros Eq2. apply f_inj. apply (Hdist (f q) (f i) (f j) a b c); auto. }
  assert (Hlt2 : Forall (fun s => s < length evs) seeds') by (eapply Forall_impl; [|exact Hlt]; intros s Hs; exact (eq_ind _ (fun n => s < n) Hs _ Hl')).
  destruct (renamed_run mw nw (length evs) _ _ Hnear seeds' ws ws' [] [] (ws1, cs) Hrw Hsh Hl' Hlt2 E) as ([ws1' cs'] & E' & Hr1 & Hl1).
  assert (E2 : resample_seeds mw (algo' (length evs') (dist_wrapper dist evs') max) seeds' ws' = Some (ws1', cs')) by exact E'.
  rewrite E2. do 2 eexists. split; [reflexivity|].
  apply renamed_with_weights; [exact Hr|exact Hr1|]. cbn [fst] in Hr1.
  destruct Hr1 as [L1 _]. cbn [fst] in *. exact (eq_trans L1 Hl1).
Qed.
End Order.

(** *** Runs *)
From Verif Require Import ModelUnweight ModelCres SpecCres CresProofs CresProofs2.

Section Perm.
Context (mw : bool) (nw : nat) (sort sort1 : sorter) (strategy : Strategy)
  (algo algo' : search_algo RN) (dist : Event RN -> Event RN -> R) (max : R) (base : list (Event RN)).
Hypothesis Hsort : sort_ok sort.
Hypothesis Hsort1 : sort_ok sort1.
Hypothesis Hst : strategy <> Next.
Hypothesis Hshape : shaped mw nw (map ev_weights base).
Hypothesis Hneg : negative_weights_differ base.
Hypothesis Hdist : distances_differ dist base.
Hypothesis Hans : forall l, Permutation base l -> answers (length l) (dist_wrapper dist l) max (algo (length l) (dist_wrapper dist l) max).
Hypothesis Hans' : forall l, Permutation base l -> answers (length l) (dist_wrapper dist l) max (algo' (length l) (dist_wrapper dist l) max).

Lemma renamed_of_perm A (l l' : list A) : Permutation l l' -> exists f, (forall i j : nat, f i = f j -> i = j) /\ renamed f l l'.
Proof. intros H. apply Permutation_nth_error in H as (H1 & f & H2 & H3). exists f. split; [exact H2|split; assumption]. Qed.

Lemma negative_perm l l' : Permutation l l' -> negative_weights_differ (N := RN) l -> negative_weights_differ l'.
Proof.
  intros Hp H. destruct (renamed_of_perm _ _ _ Hp) as (f & Hf & _ & Hn). intros i j a b w. rewrite !Hn. intros H1 H2 H3 H4 H5.
  apply Hf. exact (H _ _ a b w H1 H2 H3 H4 H5).
Qed.
Lemma distances_perm l l' : Permutation l l' -> distances_differ (N := RN) dist l -> distances_differ dist l'.
Proof.
  intros Hp H. destruct (renamed_of_perm _ _ _ Hp) as (f & Hf & _ & Hn). intros q i j a b c Hi Hj. rewrite !Hn. intros H1 H2 H3 H4.
  apply Hf. apply (H (f q) (f i) (f j) a b c); auto.
Qed.

Lemma shaped_perm (l l' : list (Event RN)) : Permutation l l' -> shaped mw nw (map ev_weights l) -> shaped mw nw (map ev_weights l').
Proof. intros Hp (H1 & H2 & H3). split; [exact H1|split; [exact H2|]]. eapply Permutation_Forall; [apply Permutation_map; exact Hp|exact H3]. Qed.

Lemma resampling_perm l l' r cells : Permutation base l -> Permutation l l' ->
  resampler_resample mw sort strategy algo dist max l = Some (r, cells) ->
  exists r' cells', resampler_resample mw sort1 strategy algo' dist max l' = Some (r', cells') /\ Permutation r r'.
Proof using Hans Hans' Hdist Hneg Hshape Hsort Hsort1 Hst.
  intros Hl Hl' H.
  assert (Hr0 : exists r' cells', resampler_resample mw sort1 strategy algo' dist max l' = Some (r', cells')).
  { apply (C04_run_succeeds RN (fun _ => True) mw nw); [exact Hsort1|exact RN_order| | |].
    - apply Forall_forall. intros w _. apply Forall_forall. auto.
    - exact (shaped_perm _ _ (Permutation_trans Hl Hl') Hshape).
    - intros q Hq. destruct (Hans' l' (Permutation_trans Hl Hl') q Hq) as (res & E & Hn & Hi & _). exists res. split; [exact E|].
      split; [exact Hn|]. intros i Hin. apply Hi in Hin as (? & ? & _). auto. }
  destruct Hr0 as (r0 & cells0 & E0).
  (* the algorithm that sorts is irrelevant without ties: use the same one first *)
  destruct (renamed_of_perm _ _ _ Hl') as (f & Hf & Hrn).
  destruct (renamed_resampling f Hf mw nw sort strategy algo algo' dist max l l' r cells Hsort Hrn Hst
    (shaped_perm _ _ Hl Hshape) (negative_perm _ _ Hl Hneg) (distances_perm _ _ Hl Hdist) (Hans l Hl) (Hans' l' (Permutation_trans Hl Hl')) H)
    as (r' & cells' & E' & Hr').
  exists r0, cells0. split; [exact E0|].
  assert (E : select_seeds (N := RN) sort strategy (map ev_weights l') = select_seeds (N := RN) sort1 strategy (map ev_weights l')).
  { set (ws := map ev_weights l').
    assert (Hid : renamed (fun i => i) ws ws) by (split; reflexivity).
    unfold resampler_resample in E', E0. fold ws in E', E0.
    destruct (select_seeds (N := RN) sort strategy ws) as [s|] eqn:Es; [|discriminate].
    destruct (select_seeds (N := RN) sort1 strategy ws) as [s1|] eqn:Es1; [|discriminate]. f_equal.
    destruct (C12_select_seeds RN sort (fun _ => True) strategy ws s Hsort RN_order (fun _ _ _ => I) Es) as (N1 & I1 & _ & M1 & L1).
    destruct (C12_select_seeds RN sort1 (fun _ => True) strategy ws s1 Hsort1 RN_order (fun _ _ _ => I) Es1) as (N2 & I2 & _ & M2 & L2).
    assert (Hp : Permutation s s1) by (apply NoDup_Permutation; [exact N1|exact N2|intros i; rewrite I1, I2; reflexivity]).
    assert (Hanti : forall Rel : R -> R -> bool, (forall a b, Rel a b = true -> Rel b a = true -> a = b) ->
      forall x y, In x s -> In y s ->
      (forall wi wj, central_weight ws x wi -> central_weight ws y wj -> Rel wi wj = true) ->
      (forall wi wj, central_weight ws y wi -> central_weight ws x wj -> Rel wi wj = true) -> x = y).
    { intros Rel Ha x y Hx Hy H1 H2. apply I1 in Hx as (wx & Cx & Lx). apply I1 in Hy as (wy & Cy & Ly).
      assert (Exy : wx = wy) by (apply Ha; auto). subst wy.
      destruct Cx as (ox & Ex). destruct Cy as (oy & Ey). unfold ws in Ex, Ey. rewrite nth_error_map in Ex, Ey.
      destruct (nth_error l' x) as [a|] eqn:Ea; [|discriminate]. destruct (nth_error l' y) as [b|] eqn:Eb; [|discriminate].
      injection Ex as Ex. injection Ey as Ey.
      apply (negative_perm _ _ (Permutation_trans Hl Hl') Hneg x y a b wx Ea Eb); [rewrite Ex; reflexivity|rewrite Ey; reflexivity|exact Lx]. }
    destruct strategy; [| |congruence].
    - apply (sorted_perm_eq _ _ _ _ Hp (L1 eq_refl) (L2 eq_refl)). apply (Hanti (fun a b => Rleb b a)). intros a b. rewrite !Rleb_true. lra.
    - apply (sorted_perm_eq _ _ _ _ Hp (M1 eq_refl) (M2 eq_refl)). apply (Hanti Rleb). intros a b. rewrite !Rleb_true. lra. }
  assert (E1 : r0 = r').
  { unfold resampler_resample in E', E0. rewrite E in E'. rewrite E' in E0. congruence. }
  subst r'. exact (renamed_perm f Hf _ _ _ Hr').
Qed.

End Perm.

Section Runs.
Context (Rec Err : Type) (is_ntuple : Rec -> bool) (convert : Rec -> Event RN + Err) (cluster : Event RN -> Event RN + Err)
  (mw : bool) (nw : nat) (sort sort' sort1 sort1' : sorter)
  (shuffle shuffle' : list (Event RN + @cres_error Err) -> list (Event RN + @cres_error Err)) (strategy : Strategy)
  (algo algo' : search_algo RN) (dist : Event RN -> Event RN -> R) (max : R)
  (records : list (Rec + Err)) (evs : list (Event RN)).
Hypothesis Hs : reorders shuffle.
Hypothesis Hs' : reorders shuffle'.
Hypothesis Hsort : sort_ok sort.
Hypothesis Hsort' : sort_ok sort'.
Hypothesis Hsort1 : sort_ok sort1.
Hypothesis Hsort1' : sort_ok sort1'.
Hypothesis Hst : strategy <> Next.
Hypothesis He : events_of convert cluster records evs.
Hypothesis Hshape : shaped mw nw (map ev_weights evs).
Hypothesis Hneg : negative_weights_differ (filter has_particles evs).
Hypothesis Hdist : distances_differ dist (filter has_particles evs).
Hypothesis Hans : forall l, Permutation (filter has_particles evs) l -> answers (length l) (dist_wrapper dist l) max (algo (length l) (dist_wrapper dist l) max).
Hypothesis Hans' : forall l, Permutation (filter has_particles evs) l -> answers (length l) (dist_wrapper dist l) max (algo' (length l) (dist_wrapper dist l) max).

Lemma run_order W :
  cres_run is_ntuple convert cluster mw sort' shuffle (lib_resample mw sort strategy algo dist max) lib_no_unweight records = Wrote W ->
  cres_run is_ntuple convert cluster mw sort1' shuffle' (lib_resample mw sort1 strategy algo' dist max) lib_no_unweight records = Wrote W.
Proof using Hans Hans' Hdist Hneg Hshape Hsort Hsort' Hsort1 Hsort1' Hst He Hs Hs'.
  intros H. destruct (run_wrote Hs Hsort' H) as (Hl & evs0 & used & evs1 & evs2 & He0 & Hp & Hr & Hu & Hid & Hw).
  assert (E0 : evs0 = evs) by (eapply events_of_fun; eassumption). subst evs0.
  cbn in Hu. injection Hu as ->.
  unfold lib_resample in Hr. destruct (resampler_resample mw sort strategy algo dist max used) as [[r1 cells]|] eqn:Er; [|discriminate].
  injection Hr as ->.
  assert (Hnf : forall r err, In r records -> ~ fault convert cluster r err) by (intros r err Hin; eapply events_of_no_fault; eauto).
  destruct (@run_used RN Rec Err is_ntuple convert cluster mw sort1' (lib_resample mw sort1 strategy algo' dist max) lib_no_unweight shuffle' records Hs' Hnf)
    as (evs0 & used' & He1 & Hp' & _ & _ & Hrun).
  assert (E0 : evs0 = evs) by (eapply events_of_fun; eassumption). subst evs0.
  assert (Huu : Permutation used used') by (eapply Permutation_trans; [apply Permutation_sym; exact Hp|exact Hp']).
  destruct (resampling_perm mw nw sort sort1 strategy algo algo' dist max _ Hsort Hsort1 Hst (shaped_used Hshape (Permutation_refl _)) Hneg Hdist Hans Hans' used used' evs2 cells Hp Huu Er) as (r' & cells' & Er' & Hrr).
  assert (El : lib_resample (Err := Err) mw sort1 strategy algo' dist max used' = Some (inl r')) by (unfold lib_resample; rewrite Er'; reflexivity).
  destruct (Hrun r' El) as (_ & _ & Hrun'). specialize (Hrun' r' eq_refl Hsort1').
  destruct (resampler_total (shaped_used Hshape Hp) Er) as (_ & T1 & _ & T3 & _).
  assert (Hnd : NoDup (map ev_id evs2)) by (rewrite T1; eapply used_nodup; eauto).
  assert (Hnd' : NoDup (map ev_id r')) by (eapply Permutation_NoDup; [apply Permutation_map; exact Hrr|exact Hnd]).
  destruct Hrun' as (W' & EW & HlW & HW1 & HW2); [|exact Hnd'|].
  { apply Forall_forall. intros e Hin. eapply Permutation_in in Hin; [|apply Permutation_sym; exact Hrr]. split; [|apply Hid; exact Hin].
    exact (proj1 (Forall_forall _ _) (shaped_nonempty T3) e Hin). }
  rewrite EW. f_equal. destruct (Hw Hnd) as [V1 V2]. apply nth_error_ext. intros n.
  destruct (Nat.lt_ge_cases n (length records)) as [Hn|Hn].
  - destruct (in_dec Nat.eq_dec n (map ev_id evs2)) as [Hi|Hi].
    + apply in_map_iff in Hi as (e & <- & Hin). rewrite (V1 e Hin). apply HW1. eapply Permutation_in; eassumption.
    + rewrite (V2 n Hn Hi). apply HW2; [exact Hn|]. intros Hi'. apply Hi. eapply Permutation_in; [|exact Hi'].
      apply Permutation_map, Permutation_sym. exact Hrr.
  - rewrite !(proj2 (nth_error_None _ _)) by lia. reflexivity.
Qed.
End Runs.
