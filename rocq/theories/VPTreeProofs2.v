(** Instances of the search lemmas, agreement with the naive search, and what remains true
    of the search for an arbitrary distance. *)
From Coq Require Import NArith Reals Lra.
From Verif Require Import Base BaseProofs Num ModelEvent ModelCell ModelNaive ModelSeeds ModelVPTree
  ModelResampler SpecSearch SpecTree RunProofs RunProofs2 SeedsProofs NaiveProofs VPTreeProofs.
Set Implicit Arguments.

(** *** Metrics over the reals with a monotone rounding *)
Local Open Scope R_scope.

Lemma RRnd_order rnd : order_on (RRnd rnd) (fun _ => True).
Proof. exact RN_order. Qed.

Lemma round_abs rnd x b : (forall x y, x <= y -> rnd x <= rnd y) -> rnd 0 = 0 ->
  rnd b = b -> rnd (- b) = - b -> - b <= x <= b -> Rabs (rnd x) <= b.
Proof.
  intros Hm H0 Hb Hmb [H1 H2]. apply Hm in H1, H2. rewrite Hb in H2. rewrite Hmb in H1.
  apply Rabs_le. lra.
Qed.

Lemma prune_RRnd n dist rnd : metric_on n dist -> exact_rounding n dist rnd ->
  prune_sound (F := RRnd rnd) (fun i => (i < n)%nat) dist.
Proof.
  intros [Hsym Htri] (Hm & H0 & Hex) q v y z Hq Hv Hy Hz. cbn.
  set (d := dist q v). set (r := dist v z).
  destruct (Hex q y Hq Hy) as [E1 E2].
  pose proof (Htri q y v Hq Hy Hv) as T1. pose proof (Htri v q y Hv Hq Hy) as T2.
  rewrite (Hsym y v) in T1 by auto. rewrite (Hsym v q) in T2 by auto. fold d in T1, T2.
  split; intros Hl Hb.
  - apply Rltb_true in Hl. apply Rleb_true in Hb.
    split; apply Rleb_true, round_abs; auto; lra.
  - apply Rltb_false in Hl. apply Rleb_true in Hb.
    split; apply Rleb_true, round_abs; auto; lra.
Qed.

Lemma tree_exact_rounded sort choose n (dist : nat -> nat -> R) rnd max q :
  sort_ok sort -> choose_ok choose -> metric_on n dist -> exact_rounding n dist rnd ->
  (N.of_nat n <= usize_max)%N -> (q < n)%nat ->
  exists l, tree_nearest (F := RRnd rnd) sort choose n dist max q = Some l /\
    nearest_list (N := RRnd rnd) n q (dist q) max l.
Proof.
  intros Hs Hc Hm He Hn Hq.
  apply (@tree_nearest_spec (RRnd rnd) (fun _ => True) (RRnd_order rnd) sort Hs dist choose Hc
    (fun i => (i < n)%nat)); auto.
  apply prune_RRnd; auto.
Qed.

Lemma exact_rounding_id n dist : exact_rounding n dist (fun x => x).
Proof. split; auto. Qed.

Lemma tree_exact sort choose n (dist : nat -> nat -> R) max q :
  sort_ok sort -> choose_ok choose -> metric_on n dist ->
  (N.of_nat n <= usize_max)%N -> (q < n)%nat ->
  exists l, tree_nearest (F := RN) sort choose n dist max q = Some l /\
    nearest_list (N := RN) n q (dist q) max l.
Proof.
  intros. apply (@tree_exact_rounded sort choose n dist (fun x => x)); auto.
  apply exact_rounding_id.
Qed.

Lemma tree_depth_exact sort choose n depth (dist : nat -> nat -> R) max q :
  sort_ok sort -> choose_ok choose -> metric_on n dist ->
  (N.of_nat n < 2 ^ N.succ depth)%N -> (q < n)%nat ->
  exists nodes l, tree_of (F := RN) sort choose dist depth (seq 0 n) = Some nodes /\
    nearest_in nodes dist max q = Some l /\ nearest_list (N := RN) n q (dist q) max l.
Proof.
  intros Hs Hc Hm Hn Hq.
  apply (@tree_depth_spec RN (fun _ => True) RN_order sort Hs dist choose Hc (fun i => (i < n)%nat)); auto.
  apply (@prune_RRnd n dist (fun x => x)); auto. apply exact_rounding_id.
Qed.

(** *** Uniqueness of the answer *)
Lemma sorted_unique_R (l l' : list R) :
  StronglySorted (fun x y => Rleb x y = true) l -> StronglySorted (fun x y => Rleb x y = true) l' ->
  Permutation l l' -> l = l'.
Proof.
  revert l'. induction l as [|a l IH]; intros l' H1 H2 Hp.
  { apply Permutation_nil in Hp; auto. }
  destruct l' as [|b l']; [apply Permutation_sym, Permutation_nil in Hp; discriminate|].
  inversion H1 as [|? ? H1s H1a]; inversion H2 as [|? ? H2s H2a]; subst.
  rewrite Forall_forall in H1a, H2a.
  assert (a = b) as ->.
  { destruct (Permutation_in _ Hp (or_introl eq_refl)) as [E|Hin]; auto.
    destruct (Permutation_in _ (Permutation_sym Hp) (or_introl eq_refl)) as [E|Hin']; auto.
    apply H1a, Rleb_true in Hin'. apply H2a, Rleb_true in Hin. lra. }
  f_equal. apply IH; auto. eapply Permutation_cons_inv; eauto.
Qed.

Lemma nearest_list_perm n q (dq : nat -> R) max l1 l2 :
  nearest_list (N := RN) n q dq max l1 -> nearest_list (N := RN) n q dq max l2 -> Permutation l1 l2.
Proof.
  intros (N1 & I1 & D1 & S1) (N2 & I2 & D2 & S2).
  assert (Hm : forall l, Forall (fun x => snd x = dq (fst x)) l -> l = map (fun i => (i, dq i)) (map fst l)).
  { intros l H. rewrite map_map. rewrite <- (map_id l) at 1. apply map_ext_in. intros [i d] Hi.
    rewrite Forall_forall in H. apply H in Hi. cbn in *. congruence. }
  rewrite (Hm l1 D1), (Hm l2 D2). apply Permutation_map.
  apply NoDup_Permutation; auto. intros i. rewrite I1, I2. tauto.
Qed.

Lemma StronglySorted_map A B (f : A -> B) (Rel : B -> B -> Prop) l :
  StronglySorted (fun x y => Rel (f x) (f y)) l -> StronglySorted Rel (map f l).
Proof.
  induction 1; cbn; constructor; auto. rewrite Forall_map. auto.
Qed.

Lemma nearest_list_dists n q (dq : nat -> R) max l1 l2 :
  nearest_list (N := RN) n q dq max l1 -> nearest_list (N := RN) n q dq max l2 ->
  map snd l1 = map snd l2.
Proof.
  intros H1 H2. pose proof (nearest_list_perm H1 H2) as Hp.
  destruct H1 as (_ & _ & _ & S1), H2 as (_ & _ & _ & S2).
  apply sorted_unique_R.
  - apply StronglySorted_map. exact S1.
  - apply StronglySorted_map. exact S2.
  - apply Permutation_map. exact Hp.
Qed.

Lemma nearest_list_unique n q (dq : nat -> R) max l1 l2 :
  (forall i j, (i < n)%nat -> (j < n)%nat -> i <> q -> j <> q -> dq i = dq j -> i = j) ->
  nearest_list (N := RN) n q dq max l1 -> nearest_list (N := RN) n q dq max l2 -> l1 = l2.
Proof.
  intros Hinj H1 H2. pose proof (nearest_list_dists H1 H2) as Hd.
  assert (Hgo : forall l1 l2 : list (nat * R), map snd l1 = map snd l2 ->
    Forall (fun x => snd x = dq (fst x) /\ (fst x < n)%nat /\ fst x <> q) l1 ->
    Forall (fun x => snd x = dq (fst x) /\ (fst x < n)%nat /\ fst x <> q) l2 -> l1 = l2).
  { clear - Hinj. induction l1 as [|[i d] l1 IH]; intros [|[j d'] l2] Hm F1 F2; try discriminate; auto.
    inversion Hm. inversion F1 as [|? ? (A1 & A2 & A3)]; inversion F2 as [|? ? (B1 & B2 & B3)]; subst.
    cbn in *. f_equal; [|apply IH; auto]. f_equal. apply Hinj; auto. congruence. }
  apply Hgo; auto.
  - destruct H1 as (_ & I & D & _). apply Forall_forall. intros x Hx. rewrite Forall_forall in D.
    split; auto. apply (in_map fst) in Hx. apply I in Hx. tauto.
  - destruct H2 as (_ & I & D & _). apply Forall_forall. intros x Hx. rewrite Forall_forall in D.
    split; auto. apply (in_map fst) in Hx. apply I in Hx. tauto.
Qed.

Lemma nearest_list_ext (N : NumOps) n q (dq dq' : nat -> N) max l :
  (forall i, (i < n)%nat -> dq i = dq' i) ->
  nearest_list n q dq max l -> nearest_list n q dq' max l.
Proof.
  intros He (H1 & H2 & H3 & H4). split; auto. split; [|split; auto].
  - intros i. rewrite H2. split; intros (A & B & C); (split; [auto|split; auto]).
    + rewrite <- He; auto.
    + rewrite He; auto.
  - apply Forall_forall. intros x Hx. rewrite Forall_forall in H3. rewrite <- He; auto.
    apply (in_map fst) in Hx. apply H2 in Hx. tauto.
Qed.

Lemma tree_naive_dists sort choose choose' n (dist : nat -> nat -> R) max q :
  sort_ok sort -> choose_ok choose -> choose_ok choose' -> metric_on n dist ->
  (N.of_nat n <= usize_max)%N -> (q < n)%nat ->
  exists lt ln, tree_nearest (F := RN) sort choose n dist max q = Some lt /\
    naive_nearest (N := RN) choose' n dist max q = Some ln /\
    map snd lt = map snd ln /\ Permutation lt ln /\
    ((forall i j, (i < n)%nat -> (j < n)%nat -> i <> q -> j <> q -> dist q i = dist q j -> i = j) -> lt = ln).
Proof.
  intros Hs Hc Hc' Hm Hn Hq.
  destruct (@tree_exact sort choose n dist max q) as (lt & Et & Ht); auto.
  destruct (@naive_nearest_ok RN (fun _ => True) RN_order choose' n dist max q) as (ln & En & Hl); auto.
  exists lt, ln. split; auto. split; auto.
  assert (Hl' : nearest_list (N := RN) n q (dist q) max ln).
  { apply nearest_list_ext with (dq := fun i => dist i q); auto. intros i Hi. apply (proj1 Hm); auto. }
  split; [eapply nearest_list_dists; eauto|]. split; [eapply nearest_list_perm; eauto|].
  intros Hd. eapply nearest_list_unique; eauto.
Qed.

(** *** Replacing the search does not change a run *)
Local Close Scope R_scope.

Lemma seed_step_search (N : NumOps) mw nearest nearest' (st : weights_state N * list (Cell N)) seed :
  nearest seed = nearest' seed -> seed_step mw nearest st seed = seed_step mw nearest' st seed.
Proof. intros H. unfold seed_step. destruct st. rewrite H. reflexivity. Qed.

Lemma resample_seeds_search (N : NumOps) mw nearest nearest' seeds (ws : weights_state N) :
  (forall s, In s seeds -> nearest s = nearest' s) ->
  resample_seeds mw nearest seeds ws = resample_seeds mw nearest' seeds ws.
Proof.
  intros H. unfold resample_seeds. generalize (ws, @nil (Cell N)). induction seeds as [|s seeds IH]; intros st; auto.
  cbn. rewrite (@seed_step_search N mw nearest nearest' st s) by (apply H; left; auto).
  destruct (seed_step mw nearest' st s); auto. apply IH. intros; apply H; right; auto.
Qed.

Lemma run_search_irrelevant sort strategy mw (algo algo' : search_algo RN) dist max (evs : list (Event RN)) :
  sort_ok sort ->
  (forall q, q < length evs -> algo (length evs) (dist_wrapper dist evs) max q =
                               algo' (length evs) (dist_wrapper dist evs) max q) ->
  resampler_resample mw sort strategy algo dist max evs =
  resampler_resample mw sort strategy algo' dist max evs.
Proof.
  intros Hs H. unfold resampler_resample.
  destruct (select_seeds sort strategy (map ev_weights evs)) as [seeds|] eqn:E; auto.
  rewrite (@resample_seeds_search RN mw (algo (length evs) (dist_wrapper dist evs) max)
     (algo' (length evs) (dist_wrapper dist evs) max)); auto.
  intros s Hin. apply H.
  pose proof (@select_seeds_lt RN (fun _ => True) sort strategy _ seeds Hs RN_order (fun _ _ _ => I) E s Hin) as Hlt.
  rewrite map_length in Hlt. exact Hlt.
Qed.

(** *** The search on arbitrary distances: what comes out is right, points may be missing *)
Section Sound.
Context (F : NumOps) (dist : nat -> nat -> F) (max : F) (pt : nat).
Notation vps := (map (@vantage_pt F)).



Lemma search_sound fuel : forall d sub idx exclude cache,
  length sub < fuel -> vp_tree dist d sub -> cache_ok dist pt cache ->
  exists res cache', nearest_in_subtree fuel dist max sub pt idx exclude cache = Some (res, cache') /\
    cache_ok dist pt cache' /\ res_valid dist pt exclude idx sub res.
Proof.
  induction fuel as [|fuel IH]; intros d sub idx exclude cache Hf Ht Hc; [lia|].
  cbn [nearest_in_subtree]. destruct sub as [|node tree].
  { exists None, cache. split; auto. split; auto. intros i d0; discriminate. }
  destruct (cache_entry cache (vantage_pt node) (dist pt (vantage_pt node))) as [d0 cache0] eqn:Ece.
  apply cache_entry_ok in Ece; auto. destruct Ece as [-> Hc0]. cbv beta iota zeta.
  set (own := if _ || _ then None else Some (idx, dist pt (vantage_pt node))).
  assert (Hown : forall sub', res_valid dist pt exclude idx (node :: sub') own).
  { intros sub' i d1 H. unfold own in H.
    destruct (Nat.eqb pt (vantage_pt node) || existsb (Nat.eqb (vantage_pt node)) exclude) eqn:E; [discriminate|].
    injection H as <- <-. split; auto. exists node. rewrite Nat.sub_diag. split; auto. split; auto.
    apply orb_false_iff in E. destruct E as [E1 E2]. apply Nat.eqb_neq in E1. split; [auto|].
    intros Hin. assert (existsb (Nat.eqb (vantage_pt node)) exclude = true); [|congruence].
    apply existsb_exists. eexists; split; eauto. apply Nat.eqb_refl. }
  inversion Ht as [d' l Hflat Hnone|d' v r inside outside Hd0 Hne Hbal Hin Hout Hr Hti Hto]; subst.
  { inversion Hnone as [|? ? Hnc _]; subst. rewrite Hnc. exists own, cache0. auto. }
  cbn [children ch_offset ch_radius vantage_pt] in *.
  replace (length (inside ++ outside) <? length inside) with false
    by (symmetry; apply Nat.ltb_ge; rewrite app_length; lia).
  replace (firstn (length inside) (inside ++ outside)) with inside
    by (rewrite firstn_app, Nat.sub_diag, firstn_O, app_nil_r, firstn_all; auto).
  replace (skipn (length inside) (inside ++ outside)) with outside
    by (rewrite skipn_app, Nat.sub_diag, skipn_all; auto).
  cbn [length] in Hf. rewrite app_length in Hf.
  set (sub := mkNode v (Some (mkChildren r (length inside))) :: inside ++ outside) in *.
  assert (Hlo : 0 < length outside) by (destruct outside; cbn; [congruence|lia]).
  set (dq := dist pt v) in *.
  assert (HVi : forall res, res_valid dist pt exclude (idx + 1) inside res -> res_valid dist pt exclude idx sub res).
  { intros res. apply res_valid_shift with (pre := [mkNode v (Some (mkChildren r (length inside)))]) (post := outside); auto. }
  assert (HVo : forall res, res_valid dist pt exclude (idx + (length inside + 1)) outside res ->
                            res_valid dist pt exclude idx sub res).
  { intros res. apply res_valid_shift with (pre := mkNode v (Some (mkChildren r (length inside))) :: inside) (post := []); auto.
    - rewrite app_nil_r. reflexivity.
    - cbn. lia. }
  assert (Hgo : forall pref other offp offo,
    (length pref < fuel /\ vp_tree dist (N.pred d) pref /\
      forall res, res_valid dist pt exclude (idx + offp) pref res -> res_valid dist pt exclude idx sub res) ->
    (length other < fuel /\ vp_tree dist (N.pred d) other /\
      forall res, res_valid dist pt exclude (idx + offo) other res -> res_valid dist pt exclude idx sub res) ->
    exists res cache', match nearest_in_subtree fuel dist max pref pt (idx + offp) exclude cache0 with
      | None => None
      | Some (nearest_pref, cache) =>
          let nearest := nearer own nearest_pref in
          if negb (nleb (nabs (nsub dq r)) max) then Some (nearest, cache)
          else if match nearest with Some (_, dn) => nltb dn (nabs (nsub r dq)) | None => false end
          then Some (nearest, cache)
          else match nearest_in_subtree fuel dist max other pt (idx + offo) exclude cache with
               | None => None
               | Some (nearest_other, cache) => Some (nearer nearest nearest_other, cache)
               end
      end = Some (res, cache') /\ cache_ok dist pt cache' /\ res_valid dist pt exclude idx sub res).
  { intros pref other offp offo (P1 & P2 & P3) (O1 & O2 & O3).
    destruct (IH (N.pred d) pref (idx + offp) exclude cache0) as (rp & cp & -> & Hcp & Vp); auto.
    cbv zeta. set (nearest := nearer own rp).
    assert (Vn : res_valid dist pt exclude idx sub nearest) by (apply nearer_valid; auto; apply Hown).
    destruct (negb _); eauto.
    destruct (match nearest with Some (_, dn) => nltb dn (nabs (nsub r dq)) | None => false end); eauto.
    destruct (IH (N.pred d) other (idx + offo) exclude cp) as (ro & co & -> & Hco & Vo); auto.
    exists (nearer nearest ro), co. split; auto. split; auto. apply nearer_valid; auto. }
  destruct (nltb r dq).
  - apply (Hgo outside inside (length inside + 1) 1); (split; [lia|split; auto]).
  - apply (Hgo inside outside 1 (length inside + 1)); (split; [lia|split; auto]).
Qed.

Lemma nn_run_sound depth nodes : vp_tree dist depth nodes -> NoDup (vps nodes) ->
  forall fuel exclude cache, cache_ok dist pt cache -> NoDup exclude -> incl exclude (vps nodes) ->
  length nodes < fuel + length exclude ->
  exists l, nn_run fuel nodes dist max pt exclude cache = Some l /\
    NoDup (map fst l) /\
    (forall i d, In (i, d) l -> In i (vps nodes) /\ i <> pt /\ ~ In i exclude /\
       d = dist pt i /\ nleb (dist pt i) max = true).
Proof.
  intros Ht Hnd0. induction fuel as [|fuel IH]; intros exclude cache Hc Hnd Hincl Hf.
  { exfalso. pose proof (NoDup_incl_length Hnd Hincl) as H. rewrite map_length in H. lia. }
  cbn [nn_run]. unfold nearest_in_impl.
  destruct (@search_sound (S (length nodes)) depth nodes 0 exclude cache) as (res & c' & -> & Hc' & Hv); auto.
  destruct res as [[i d]|].
  2:{ exists []. split; auto. split; [constructor|]. intros i d []. }
  destruct (Hv i d eq_refl) as (_ & n & Hn & [Ha1 Ha2] & Hdd). rewrite Nat.sub_0_r in Hn.
  destruct (nleb d max) eqn:Em.
  2:{ exists []. split; auto. split; [constructor|]. intros i' d' []. }
  rewrite Hn.
  assert (Hin : In (vantage_pt n) (vps nodes)) by (apply in_map; eapply nth_error_In; eauto).
  destruct (IH (vantage_pt n :: exclude) c') as (l & -> & L1 & L2); auto.
  - constructor; auto.
  - intros y [<-|Hy]; auto.
  - cbn. lia.
  - eexists. split; [reflexivity|]. cbn [map fst]. split.
    + constructor; auto. intros H. apply in_map_iff in H. destruct H as ([i' d'] & Hi & H).
      cbn in Hi. subst i'. apply L2 in H. destruct H as (_ & _ & H & _). apply H. left; auto.
    + intros i' d' [E|H].
      * injection E as <- <-. subst d. auto.
      * apply L2 in H. destruct H as (H1 & H2 & H3 & H4). split; auto. split; auto. split; auto.
        intros H'. apply H3. right; auto.
Qed.

End Sound.

Lemma tree_sound (F : NumOps) (D : F -> Prop) sort choose n (dist : nat -> nat -> F) max q :
  order_on F D -> sort_ok sort -> choose_ok choose ->
  (forall i j, i < n -> j < n -> D (dist i j)) -> q < n ->
  exists l, tree_nearest sort choose n dist max q = Some l /\ NoDup (map fst l) /\
    forall i d, In (i, d) l -> i < n /\ i <> q /\ d = dist q i /\ nleb (dist q i) max = true.
Proof.
  intros Ho Hs Hc HD Hq. unfold tree_nearest. rewrite par_tree_eq by lia.
  destruct (@tree_of_spec F D Ho sort Hs dist choose Hc usize_max (seq 0 n)) as (nodes & -> & Hp & Ht).
  { intros p q' Hpin Hq'. apply in_seq in Hpin, Hq'. apply HD; lia. }
  unfold nearest_in.
  assert (Hnd : NoDup (map vantage_pt nodes)) by (eapply Permutation_NoDup; [exact Hp|apply seq_NoDup]).
  destruct (@nn_run_sound F dist max q usize_max nodes Ht Hnd (S (length nodes)) [] [])
    as (l & El & L1 & L2).
  - intros k d; discriminate.
  - constructor.
  - intros y [].
  - cbn; lia.
  - exists l. split; auto. split; auto. intros i d H. apply L2 in H. destruct H as (A & B & C & E1 & E2).
    apply (Permutation_in _ (Permutation_sym Hp)) in A. apply in_seq in A. repeat split; auto. lia.
Qed.
