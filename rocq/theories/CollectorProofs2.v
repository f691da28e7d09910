(** Proofs about combining collectors, the observer and the distribution of the randomly
    selected cells. *)
From Verif Require Import Base BaseProofs Num ModelCollector SpecCollector CollectorProofs.
Set Implicit Arguments.

Section CombineTable.
Variable V : Type.
Variable leb lt : V -> V -> bool.
Variable D : V -> Prop.
Hypothesis Htp : total_preorder_on D leb.
Hypothesis Hlt : forall x y, D x -> D y -> lt x y = negb (leb y x).
Variable N : NumOps.
Variable val : CellInfo N -> V.
Implicit Types cs : list (CellInfo N).

Lemma shifted_ids n (t : table V) : map cid (shifted n t) = map (fun i => i + n) (map cid t).
Proof. unfold shifted. rewrite !map_map. apply map_ext. intros [[v i] x]. reflexivity. Qed.

Lemma combine_table_spec cs1 cs2 t1 t2 :
  table_inv lt D val cs1 t1 -> table_inv lt D val cs2 t2 ->
  exists dropped, let r := combine_table lt (length cs1) t1 t2 in
    Permutation (t1 ++ shifted (length cs1) t2) (r ++ dropped) /\
    length r = Nat.min 10 (length t1 + length t2) /\
    (forall e e', In e r -> In e' dropped -> lt (fst (fst e')) (fst (fst e)) = false).
Proof.
  intros (S1 & D1 & T1) (S2 & D2 & T2).
  assert (Hnd : NoDup (map cid t1 ++ map cid (shifted (length cs1) t2))).
  { rewrite shifted_ids. apply nodup_shift.
    - apply T1. - apply T2. - exact (ids_bound T1). }
  destruct (extend_spec Htp Hlt (length cs1) S1 D1 D2 Hnd) as [Hs Hp].
  unfold combine_table, truncate, NCELLS. set (full := fold_left _ _ _) in *.
  exists (skipn 10 full). cbv zeta. rewrite firstn_skipn. split; [exact Hp|].
  assert (L : length full = length t1 + length t2).
  { etransitivity; [symmetry; exact (Permutation_length Hp)|]. rewrite app_length. unfold shifted. rewrite map_length. auto. }
  split.
  - rewrite firstn_length, L. auto.
  - intros e e' He He'.
    assert (Hd : dom D full).
    { eapply dom_perm; [exact Hp|]. unfold dom in *. apply Forall_app. split; auto.
      unfold shifted. apply Forall_forall. intros x Hx. apply in_map_iff in Hx as (y & <- & Hy). cbn. rewrite Forall_forall in D2. apply D2; auto. }
    unfold dom in Hd. rewrite Forall_forall in Hd. rewrite <- (firstn_skipn 10 full) in Hs.
    assert (K : klt lt (fst e) (fst e')).
    { clear - Hs He He'. unfold tsorted in Hs. revert He. induction (firstn 10 full) as [|x l IH]; intros He; [destruct He|].
      cbn in Hs. apply StronglySorted_inv in Hs as [Hs Hf]. destruct He as [<-|He].
      - rewrite Forall_forall in Hf. apply Hf. apply in_or_app. auto.
      - apply IH; auto. }
    apply klt_value with (leb := leb) (D := D); auto; apply Hd; rewrite <- (firstn_skipn 10 full); apply in_or_app; auto.
Qed.

Lemma combine_table_few cs1 cs2 t1 t2 :
  table_inv lt D val cs1 t1 -> table_inv lt D val cs2 t2 -> length cs1 + length cs2 <= 10 ->
  ten_largest lt val (cs1 ++ cs2) (combine_table lt (length cs1) t1 t2).
Proof.
  intros I1 I2 Hle. destruct (combine_table_spec I1 I2) as (dr & P & L & _).
  destruct I1 as (S1 & D1 & T1), I2 as (S2 & D2 & T2). pose proof (ids_bound T1) as B1. pose proof (ids_bound T2) as B2.
  destruct T1 as (L1 & N1 & E1 & _), T2 as (L2 & N2 & E2 & _). set (r := combine_table _ _ _ _) in *.
  assert (dr = []).
  { apply length_zero_iff_nil. pose proof (Permutation_length P) as Q. rewrite !app_length in Q. unfold shifted in Q. rewrite map_length in Q. unfold key in *. lia. }
  subst dr. rewrite app_nil_r in P.
  assert (Lr : length r = length (cs1 ++ cs2)) by (rewrite app_length; unfold key in *; lia).
  assert (Nr : NoDup (map cid r)).
  { eapply Permutation_NoDup; [exact (Permutation_map cid P)|]. rewrite map_app, shifted_ids. apply nodup_shift; auto. }
  assert (Er : forall v i ids, In (v, i, ids) r -> exists c, nth_error (cs1 ++ cs2) i = Some c /\ val c = v /\ c_ids c = ids).
  { intros v i ids Hi. apply Permutation_in with (l' := t1 ++ shifted (length cs1) t2) in Hi; [|symmetry; auto].
    apply in_app_iff in Hi as [Hi|Hi].
    - destruct (E1 _ _ _ Hi) as (c & Hc & Hr). exists c. split; auto. rewrite nth_error_app1; auto. apply nth_error_Some. congruence.
    - unfold shifted in Hi. apply in_map_iff in Hi as (((v', i'), ids') & [= <- <- <-] & Hi).
      destruct (E2 _ _ _ Hi) as (c & Hc & Hr). exists c. split; auto. rewrite nth_error_app2 by lia. rewrite Nat.add_sub. auto. }
  split; [rewrite Lr, app_length; lia|]. split; auto. split; auto.
  intros i c Hi Hn. exfalso. apply Hn. apply all_listed with (n := length (cs1 ++ cs2)); auto.
  - intros j Hj. apply in_map_iff in Hj as (((v, j'), ids) & <- & Hj). cbn. apply Er in Hj as (c' & Hc' & _). apply nth_error_Some. congruence.
  - rewrite map_length. auto.
  - apply nth_error_Some. congruence.
Qed.
End CombineTable.

Section Observer.
Variable N : NumOps.
Variable D : N -> Prop.
Hypothesis HN : order_on N D.
Variable sort : sorter.
Hypothesis Hsort : sort_ok sort.
Implicit Types cs : list (CellInfo N).

Definition weak_inv cs (c : Collector N) : Prop := co_count c = length cs /\ ten_different cs (co_random c).

Lemma coll_weak cs c : coll_inv D cs c -> weak_inv cs c.
Proof. intros (H1 & _ & H3 & _). split; auto. Qed.

Lemma combine_weak pick cs1 cs2 c1 c2 : pick_ok pick -> weak_inv cs1 c1 -> weak_inv cs2 c2 ->
  exists c, combine c1 c2 pick = Some c /\ weak_inv (cs1 ++ cs2) c.
Proof.
  intros Hp [C1 R1] [C2 R2]. unfold combine. rewrite C1, C2. destruct (random_combine Hp R1 R2) as (l & E & T).
  cbv zeta. rewrite E. eexists. split; [reflexivity|]. split; auto. cbn. rewrite app_length. auto.
Qed.

Definition nneg cs : nat := length (filter (fun c => nltb (c_weight c) n0) cs).

(** Data of a thread (or of several) that observed [cs]. *)
Definition data_inv (with_coll : bool) cs (d : ObsData N) : Prop :=
  o_radii d = map c_radius cs /\ o_nneg d = nneg cs /\
  match o_collector d with Some c => with_coll = true /\ weak_inv cs c | None => with_coll = false end.

Definition strong_inv (with_coll : bool) cs (d : ObsData N) : Prop :=
  o_radii d = map c_radius cs /\ o_nneg d = nneg cs /\
  match o_collector d with Some c => with_coll = true /\ coll_inv D cs c | None => with_coll = false end.

Lemma nneg_app cs1 cs2 : nneg (cs1 ++ cs2) = nneg cs1 + nneg cs2.
Proof. unfold nneg. rewrite filter_app, app_length. auto. Qed.

Lemma observe_strong b draw cs d x : Forall (cell_dom D) cs -> cell_dom D x -> strong_inv b cs d ->
  exists d', observe_data draw d x = Some d' /\ strong_inv b (cs ++ [x]) d'.
Proof.
  intros Hcs Hx (Hr & Hn & Hc). unfold observe_data.
  assert (Hn' : (if nltb (c_weight x) n0 then S (o_nneg d) else o_nneg d) = nneg (cs ++ [x])).
  { rewrite nneg_app, Hn. replace (nneg [x]) with (if nltb (c_weight x) n0 then 1 else 0) by (unfold nneg; cbn; destruct (nltb _ _); auto). destruct (nltb (c_weight x) n0); lia. }
  destruct (o_collector d) as [c|].
  - destruct Hc as [Hb Hc]. destruct (collect_inv HN (draw (co_count c)) Hcs Hx Hc) as (c' & E & I). rewrite E.
    eexists. split; [reflexivity|]. split; [cbn; rewrite Hr, map_app; auto|]. split; [exact Hn'|]. cbn; auto.
  - eexists. split; [reflexivity|]. split; [cbn; rewrite Hr, map_app; auto|]. split; [exact Hn'|]. cbn; auto.
Qed.

Lemma observe_list b draw cs' : forall cs d, Forall (cell_dom D) cs -> Forall (cell_dom D) cs' -> strong_inv b cs d ->
  exists d', ofold (observe_data draw) cs' d = Some d' /\ strong_inv b (cs ++ cs') d'.
Proof.
  induction cs' as [|x cs' IH]; intros cs d H1 H2 H3; cbn.
  - exists d. rewrite app_nil_r. auto.
  - inversion H2; subst. destruct (@observe_strong b draw cs d x) as (d1 & E1 & I1); auto. rewrite E1.
    destruct (IH (cs ++ [x]) d1) as (d2 & E2 & I2); auto. { apply Forall_app; auto. }
    exists d2. rewrite <- app_assoc in I2. auto.
Qed.

Lemma strong_data b cs d : strong_inv b cs d -> data_inv b cs d.
Proof.
  intros (H1 & H2 & H3). split; auto. split; auto. destruct (o_collector d); auto. destruct H3; split; auto. apply coll_weak; auto.
Qed.

Lemma combine_data_inv b pick cs1 cs2 d1 d2 : pick_ok pick -> data_inv b cs1 d1 -> data_inv b cs2 d2 ->
  exists d, combine_data pick d1 d2 = Some d /\ data_inv b (cs1 ++ cs2) d.
Proof.
  intros Hp (R1 & M1 & C1) (R2 & M2 & C2). unfold combine_data.
  destruct (o_collector d1) as [c1|], (o_collector d2) as [c2|].
  - destruct C1 as [-> C1], C2 as [_ C2]. destruct (combine_weak Hp C1 C2) as (c & E & I). rewrite E.
    eexists. split; [reflexivity|]. split; [cbn; rewrite R1, R2, map_app; auto|]. split; [cbn; rewrite M1, M2, nneg_app; auto|]. cbn; auto.
  - destruct C1; congruence.
  - destruct C2; congruence.
  - eexists. split; [reflexivity|]. split; [cbn; rewrite R1, R2, map_app; auto|]. split; [cbn; rewrite M1, M2, nneg_app; auto|]. cbn; auto.
Qed.

Lemma thread_data_inv b central draw parts : forall n, strong_inv b [] central -> Forall (Forall (cell_dom D)) parts ->
  exists ds, thread_data central draw n parts = Some ds /\ Forall2 (data_inv b) parts ds.
Proof.
  induction parts as [|p ps IH]; intros n Hc Hd; cbn.
  - eauto.
  - inversion Hd; subst. destruct (@observe_list b (draw n) p [] central) as (d & E & I); auto. rewrite E.
    destruct (IH (S n)) as (ds & E' & I'); auto. rewrite E'. eexists. split; [reflexivity|].
    constructor; auto. apply strong_data. auto.
Qed.

Lemma reduce_inv b pick parts ds : (forall n, pick_ok (pick n)) -> Forall2 (data_inv b) parts ds ->
  forall n cs d, data_inv b cs d ->
  exists k r, ofold (fun '(n, acc) d => match combine_data (pick n) acc d with None => None | Some acc' => Some (S n, acc') end) ds (n, d) = Some (k, r) /\
    data_inv b (cs ++ concat parts) r.
Proof.
  intros Hp. induction 1 as [|p d' parts ds Hd Hds IH]; intros n cs d Hc; cbn.
  - exists n, d. rewrite app_nil_r. auto.
  - destruct (combine_data_inv (Hp n) Hc Hd) as (d1 & E & I). rewrite E.
    destruct (IH (S n) (cs ++ p) d1 I) as (k & r & E' & I'). exists k, r. rewrite <- app_assoc in I'. auto.
Qed.

Lemma concat_filter cs (parts : list (list (CellInfo N))) : cs = [] ->
  concat (filter (fun p => negb (length p =? 0)) parts) = concat parts.
Proof.
  intros _. induction parts as [|p ps IH]; cbn; auto. destruct p; cbn; auto. rewrite IH. auto.
Qed.

Lemma run_observer_spec b col draw pick parts :
  (col = None /\ b = false \/ col = Some co_new /\ b = true) -> (forall n, pick_ok (pick n)) ->
  Forall (Forall (cell_dom D)) parts ->
  let cells := concat parts in
  exists d rep, run_observer sort (mkObs [] col 0) draw pick parts = Some (d, rep) /\
    (cells = [] -> rep = None /\ d = mkObs [] col 0) /\
    (cells <> [] -> exists m s, rep = Some (mkRep (length cells) (nneg cells) m) /\
       Permutation (map c_radius cells) s /\ ordered nleb s /\ nth_error s (length cells / 2) = Some m /\
       match o_collector d with Some c => b = true /\ weak_inv cells c | None => b = false end).
Proof.
  intros Hcol Hp Hd cells. unfold run_observer.
  set (ps := filter _ parts).
  assert (Hd' : Forall (Forall (cell_dom D)) ps).
  { apply Forall_forall. intros p Hp'. apply filter_In in Hp' as [Hp' _]. rewrite Forall_forall in Hd. auto. }
  assert (Hc : concat ps = cells) by (apply concat_filter with (cs := []); auto).
  assert (H0 : strong_inv b [] (mkObs [] col 0)).
  { repeat split. cbn. destruct Hcol as [[-> ->]|[-> ->]]; auto. split; auto. apply coll_inv_new. }
  destruct (thread_data_inv draw 0 H0 Hd') as (ds & E & I). rewrite E.
  assert (Hne : Forall (fun p => p <> []) ps).
  { apply Forall_forall. intros p Hp'. apply filter_In in Hp' as [_ Hp']. intros ->. discriminate. }
  destruct I as [|p d ps' ds Hpd Hpds].
  - eexists _, _. split; [reflexivity|]. split; [auto|]. cbn in Hc. congruence.
  - destruct (reduce_inv pick Hp Hpds 0 Hpd) as (k & r & E' & I'). rewrite E'.
    change (p ++ concat ps') with (concat (p :: ps')) in I'. rewrite Hc in I'.
    destruct I' as (R & M & C). unfold median_radius. rewrite R, map_length.
    assert (Hdom : Forall (cell_dom D) cells).
    { rewrite <- Hc. clear - Hd'. induction Hd'; cbn; [constructor|]. apply Forall_app. auto. }
    destruct (Hsort (leb := nleb) (map c_radius cells)) as [P O].
    { destruct HN as [Htp _]. eapply total_preorder_sub; [|exact Htp]. intros x Hx. cbn in Hx. apply in_map_iff in Hx as (c & <- & Hx).
      rewrite Forall_forall in Hdom. apply Hdom; auto. }
    inversion Hne as [|? ? Hp0 _]; subst.
    assert (Hlen : length cells <> 0). { intros Hz. apply length_zero_iff_nil in Hz. rewrite <- Hc in Hz. cbn in Hz. destruct p; [congruence|discriminate]. }
    destruct (nth_error (sort _ (map c_radius cells)) (length cells / 2)) as [m|] eqn:Em.
    + eexists _, _. split; [reflexivity|]. split; [intros Hz; rewrite Hz in Hlen; cbn in Hlen; lia|]. intros _.
      exists m, (sort nleb (map c_radius cells)). split; [rewrite M; auto|]. repeat split; auto.
    + exfalso. apply nth_error_None in Em. rewrite <- (Permutation_length P), map_length in Em.
      assert (length cells / 2 < length cells) by (apply Nat.div_lt; lia). lia.
Qed.

(** One thread: the collector is as good as if it had seen all cells at once. *)
Lemma resample_one cs cs' c draw pick : coll_inv D cs c -> Forall (cell_dom D) cs -> Forall (cell_dom D) cs' ->
  exists c', resample_collector sort c draw pick [cs'] = Some c' /\ coll_inv D (cs ++ cs') c'.
Proof.
  intros Hc Hd Hd'. unfold resample_collector, run_observer.
  destruct cs' as [|x cs'].
  { cbn. exists c. rewrite app_nil_r. auto. }
  cbn [filter length Nat.eqb negb thread_data].
  assert (K : forall l cs0 d c0, Forall (cell_dom D) cs0 -> Forall (cell_dom D) l -> o_collector d = Some c0 -> coll_inv D cs0 c0 ->
     exists d' c1, ofold (observe_data (draw 0)) l d = Some d' /\ o_collector d' = Some c1 /\ coll_inv D (cs0 ++ l) c1 /\
       o_radii d' = o_radii d ++ map c_radius l).
  { induction l as [|y l IH]; intros cs0 d c0 A1 A2 A3 A4; cbn [ofold].
    - exists d, c0. rewrite !app_nil_r. auto.
    - inversion A2; subst. unfold observe_data at 1. rewrite A3.
      destruct (collect_inv HN (draw 0 (co_count c0)) A1 H1 A4) as (c1 & E & I). rewrite E.
      destruct (IH (cs0 ++ [y]) (mkObs (o_radii d ++ [c_radius y]) (Some c1) (if nltb (c_weight y) n0 then S (o_nneg d) else o_nneg d)) c1) as (d' & c2 & B1 & B2 & B3 & B4); auto.
      { apply Forall_app; auto. }
      exists d', c2. rewrite <- app_assoc in B3. split; [exact B1|]. split; auto. split; auto. rewrite B4. cbn. rewrite <- app_assoc. auto. }
  destruct (K (x :: cs') cs (mkObs [] (Some c) 0) c) as (d' & c1 & E1 & E2 & I & R); auto.
  rewrite E1. cbn [ofold]. cbn [o_radii app] in R. unfold median_radius. rewrite R, map_length.
  destruct (Hsort (leb := nleb) (map c_radius (x :: cs'))) as [P O].
  { destruct HN as [Htp _]. eapply total_preorder_sub; [|exact Htp]. intros y Hy. cbn beta in Hy. apply in_map_iff in Hy as (z & <- & Hz).
    rewrite Forall_forall in Hd'. apply Hd'; auto. }
  destruct (nth_error (sort _ (map c_radius (x :: cs'))) (length (x :: cs') / 2)) as [m|] eqn:Em.
  - exists c1. cbn [o_collector]. auto.
  - exfalso. apply nth_error_None in Em. rewrite <- (Permutation_length P), map_length in Em.
    assert (length (x :: cs') / 2 < length (x :: cs')) by (apply Nat.div_lt; cbn; lia). lia.
Qed.
End Observer.

(** *** Every cell is equally likely to be among the randomly selected ones. *)
Section Uniform.
Variable N : NumOps.
Variable D : N -> Prop.
Hypothesis HN : order_on N D.
Implicit Types cs : list (CellInfo N).

Lemma collect_all_ext d d' cs : forall n (c : Collector N), (forall k, n <= k < n + length cs -> d k = d' k) ->
  collect_all d n cs c = collect_all d' n cs c.
Proof.
  induction cs as [|x cs IH]; intros n c H; cbn; auto. cbn in H. rewrite (H n) by lia.
  destruct (collect c x (d' n)); auto. apply IH. intros k Hk. apply H. lia.
Qed.

Lemma collect_all_snoc d cs x : forall n (c : Collector N),
  collect_all d n (cs ++ [x]) c = match collect_all d n cs c with None => None | Some c' => collect c' x (d (n + length cs)) end.
Proof.
  induction cs as [|y cs IH]; intros n c; cbn.
  - rewrite Nat.add_0_r. destruct (collect c x (d n)); auto.
  - destruct (collect c y (d n)); auto. rewrite IH. destruct (collect_all d (S n) cs c0); auto. f_equal. f_equal. lia.
Qed.

Definition selected (i : nat) cs (ds : list nat) : bool :=
  match collect_all (fun k => nth k ds 0) 0 cs co_new with
  | Some c => existsb (Nat.eqb i) (map fst (co_random c))
  | None => false
  end.

Definition tally {A} (p : A -> bool) (l : list A) : nat := length (filter p l).

Lemma tally_app A (p : A -> bool) l l' : tally p (l ++ l') = tally p l + tally p l'.
Proof. unfold tally. rewrite filter_app, app_length. auto. Qed.
Lemma tally_map A B (p : B -> bool) (f : A -> B) l : tally p (map f l) = tally (fun a => p (f a)) l.
Proof. unfold tally. induction l; cbn; auto. destruct (p (f a)); cbn; auto. Qed.
Lemma tally_ext A (p q : A -> bool) l : (forall a, In a l -> p a = q a) -> tally p l = tally q l.
Proof.
  unfold tally. induction l as [|a l IH]; intros H; cbn; auto. rewrite (H a) by (left; auto).
  assert (E : length (filter p l) = length (filter q l)) by (apply IH; intros; apply H; right; auto).
  destruct (q a); cbn; auto.
Qed.

Lemma all_draws_length n ds : In ds (all_draws n) -> length ds = n.
Proof.
  revert ds. induction n as [|n IH]; intros ds; cbn [all_draws].
  - intros [<-|[]]. auto.
  - intros H. apply in_flat_map in H as (ds' & H' & H). apply in_map_iff in H as (d & <- & _). rewrite app_length, (IH ds') by auto. cbn. lia.
Qed.

Lemma flat_tally (p : list nat -> bool) (q : list nat -> bool) n a :
  (forall ds, In ds (all_draws n) -> tally (fun d => p (ds ++ [d])) (seq 0 (S n)) = if q ds then a else 0) ->
  tally p (all_draws (S n)) = tally q (all_draws n) * a.
Proof.
  cbn [all_draws]. intros H. assert (K : forall l, incl l (all_draws n) ->
    tally p (flat_map (fun ds => map (fun d => ds ++ [d]) (seq 0 (S n))) l) = tally q l * a).
  { induction l as [|ds l IH]; intros Hi; cbn [flat_map]; auto. rewrite tally_app, tally_map, H by (apply Hi; left; auto).
    rewrite IH by (intros y Hy; apply Hi; right; auto). unfold tally. cbn [filter]. destruct (q ds); cbn [length]; lia. }
  apply K. apply incl_refl.
Qed.

Lemma draws_succ n : length (all_draws (S n)) = length (all_draws n) * S n.
Proof.
  assert (K : forall l : list (list nat), tally (fun _ => true) l = length l).
  { intros l. unfold tally. induction l; cbn; auto. }
  rewrite <- (K (all_draws (S n))), <- (K (all_draws n)). apply flat_tally. intros ds _. cbn beta. unfold tally.
  assert (forall l : list nat, length (filter (fun _ => true) l) = length l) by (induction l; cbn; auto). rewrite H, seq_length. auto.
Qed.

Lemma tally_neq p n s : s <= p < s + n -> tally (fun d => negb (d =? p)) (seq s n) = n - 1.
Proof.
  revert s. induction n as [|n IH]; intros s H; [lia|]. cbn [seq]. unfold tally in *. cbn [filter].
  destruct (Nat.eqb_spec s p) as [->|Hn]; cbn [negb length].
  - assert (forall m t, p < t -> length (filter (fun d => negb (d =? p)) (seq t m)) = m) as K.
    { induction m as [|m IHm]; intros t Ht; cbn; auto. destruct (Nat.eqb_spec t p); [lia|]. cbn. rewrite IHm by lia. auto. }
    rewrite K by lia. lia.
  - rewrite IH by lia. lia.
Qed.
Lemma tally_lt k n s : tally (fun d => d <? k) (seq s n) = Nat.min n (k - s).
Proof.
  revert s. induction n as [|n IH]; intros s; auto. cbn [seq]. unfold tally in *. cbn [filter].
  destruct (Nat.ltb_spec s k); cbn [length]; rewrite IH; lia.
Qed.

Lemma existsb_In i (l : list nat) : existsb (Nat.eqb i) l = true <-> In i l.
Proof. rewrite existsb_exists. split; [intros (x & H & E); apply Nat.eqb_eq in E; subst; auto|intros H; exists i; rewrite Nat.eqb_refl; auto]. Qed.

Lemma select_old (i m : nat) (r : list (nat * list nat)) ids : length r = 10 -> NoDup (map fst r) -> ~ In m (map fst r) -> i <> m -> 10 <= m ->
  tally (fun d => match collect_random m d ids r with Some r' => existsb (Nat.eqb i) (map fst r') | None => false end) (seq 0 (S m)) =
  if existsb (Nat.eqb i) (map fst r) then m else 0.
Proof.
  intros L Hnd Hf Hne Hm. destruct (existsb (Nat.eqb i) (map fst r)) eqn:E.
  - apply existsb_In in E. apply in_map_iff in E as ([i' ids'] & Ei & E). cbn in Ei. subst i'.
    apply In_nth_error in E as [p E]. assert (Hp : p < 10) by (rewrite <- L; apply nth_error_Some; congruence).
    rewrite (@tally_ext _ _ (fun d => negb (d =? p))).
    + rewrite tally_neq by lia. lia.
    + intros d _. unfold collect_random, NCELLS. destruct (Nat.ltb_spec m 10); [lia|].
      destruct (Nat.ltb_spec d (length r)) as [Hd|Hd].
      * destruct (nth_error r d) as [y|] eqn:Ey; [|apply nth_error_None in Ey; lia].
        destruct (set_nth_split d (m, ids) r Ey) as (l1 & l2 & -> & <- & ->). rewrite map_app in *. cbn [map fst] in *.
        destruct (Nat.eqb_spec (length l1) p) as [Hdp|Hdp]; cbn [negb].
        -- subst p. assert (y = (i, ids')) by congruence. subst y. apply NoDup_remove_2 in Hnd.
           apply not_true_iff_false. rewrite existsb_In. intros H'. apply Hnd. apply in_app_iff in H'. apply in_app_iff. cbn [fst] in *.
           destruct H' as [?|[?|?]]; auto. congruence.
        -- apply existsb_In. apply in_or_app. destruct (Nat.lt_ge_cases p (length l1)) as [Hlt|Hge].
           ++ left. rewrite nth_error_app1 in E by auto. apply nth_error_In in E. apply in_map_iff. exists (i, ids'). auto.
           ++ right. right. rewrite nth_error_app2 in E by lia. destruct (p - length l1) as [|q] eqn:Eq; [lia|]. cbn in E.
              apply nth_error_In in E. apply in_map_iff. exists (i, ids'). auto.
      * destruct (Nat.eqb_spec d p); [lia|]. cbn. apply existsb_In. apply nth_error_In in E. apply in_map_iff. exists (i, ids'). auto.
  - rewrite (@tally_ext _ _ (fun _ => false)).
    + unfold tally. induction (seq 0 (S m)); auto.
    + intros d _. apply not_true_iff_false in E. rewrite existsb_In in E. unfold collect_random, NCELLS. destruct (Nat.ltb_spec m 10); [lia|].
      destruct (Nat.ltb_spec d (length r)) as [Hd|Hd]; [|apply not_true_iff_false; rewrite existsb_In; auto].
      destruct (nth_error r d) as [y|] eqn:Ey; [|apply nth_error_None in Ey; lia].
      destruct (set_nth_split d (m, ids) r Ey) as (l1 & l2 & -> & <- & ->). rewrite map_app in *. cbn [map fst] in *.
      apply not_true_iff_false. rewrite existsb_In. intros H'. apply E. apply in_app_iff in H'. apply in_app_iff. cbn. destruct H' as [?|[?|?]]; auto. congruence.
Qed.

Lemma select_new (m : nat) (r : list (nat * list nat)) ids : length r = 10 -> ~ In m (map fst r) -> 10 <= m ->
  tally (fun d => match collect_random m d ids r with Some r' => existsb (Nat.eqb m) (map fst r') | None => false end) (seq 0 (S m)) = 10.
Proof.
  intros L Hf Hm. rewrite (@tally_ext _ _ (fun d => d <? 10)).
  - rewrite tally_lt. lia.
  - intros d _. unfold collect_random, NCELLS. destruct (Nat.ltb_spec m 10); [lia|]. rewrite L.
    destruct (Nat.ltb_spec d 10) as [Hd|Hd].
    + destruct (nth_error r d) as [y|] eqn:Ey; [|apply nth_error_None in Ey; lia].
      destruct (set_nth_split d (m, ids) r Ey) as (l1 & l2 & -> & <- & ->). apply existsb_In. rewrite map_app. apply in_or_app. right. left. auto.
    + apply not_true_iff_false. rewrite existsb_In. auto.
Qed.

Lemma selected_step i cs x ds : Forall (cell_dom D) cs -> cell_dom D x -> length ds = length cs ->
  exists r, ten_different cs r /\ selected i cs ds = existsb (Nat.eqb i) (map fst r) /\
  (forall d, selected i (cs ++ [x]) (ds ++ [d]) =
    match collect_random (length cs) d (c_ids x) r with Some r' => existsb (Nat.eqb i) (map fst r') | None => false end).
Proof.
  intros Hcs Hx L. destruct (@collect_all_inv N D HN (fun k => nth k ds 0) cs [] 0 co_new) as (c & E & I); auto.
  { apply coll_inv_new. }
  cbn [app] in I. exists (co_random c). split; [apply I|]. split; [unfold selected; rewrite E; auto|].
  intros d'. unfold selected. rewrite collect_all_snoc.
  rewrite (@collect_all_ext _ (fun k => nth k ds 0)) by (intros k Hk; rewrite app_nth1 by lia; auto).
  rewrite E. cbn [Nat.add]. rewrite app_nth2, L, Nat.sub_diag by lia. cbn [nth].
  destruct (collect_inv HN d' Hcs Hx I) as (c' & E' & I'). rewrite E'.
  pose proof I as (Ic & _). unfold collect in E'. rewrite Ic in E'.
  destruct (collect_table _ _ _ _ (co_radius c)); [|discriminate].
  destruct (collect_table _ _ _ _ (co_members c)); [|discriminate].
  destruct (collect_table _ _ _ _ (co_weight c)); [|discriminate].
  destruct (collect_random (length cs) d' (c_ids x) (co_random c)); [|discriminate].
  injection E' as <-. auto.
Qed.

Lemma ten_different_fresh cs r : ten_different cs r -> ~ In (length cs) (map fst r).
Proof.
  intros (_ & _ & Hd) H. apply in_map_iff in H as (e & E & H). rewrite Forall_forall in Hd. apply Hd, describes_lt in H. lia.
Qed.

Lemma uniform i cs : Forall (cell_dom D) cs -> i < length cs -> 10 <= length cs ->
  length cs * tally (selected i cs) (all_draws (length cs)) = 10 * length (all_draws (length cs)).
Proof.
  revert i. induction cs as [|x cs IH] using rev_ind; intros i Hd Hi Hl; [cbn in Hi; lia|].
  apply Forall_app in Hd as [Hd Hx]. inversion Hx as [|? ? Hx' _]; subst. clear Hx.
  rewrite app_length in *. cbn [length] in *. rewrite Nat.add_1_r in *.
  rewrite draws_succ. destruct (Nat.lt_ge_cases (length cs) 10) as [Hs|Hs].
  - (* exactly ten cells: all are selected *)
    assert (length cs = 9) by lia.
    rewrite (@flat_tally _ (fun _ => true) _ (S (length cs))).
    + assert (K : forall l : list (list nat), tally (fun _ => true) l = length l).
      { intros l. unfold tally. induction l; cbn; auto. }
      rewrite K. rewrite H. lia.
    + intros ds Hds. cbn iota. assert (Hdl := all_draws_length _ _ Hds).
      rewrite (@tally_ext _ _ (fun _ => true)).
      * unfold tally. assert (forall l : list nat, length (filter (fun _ => true) l) = length l) by (induction l; cbn; auto). rewrite H0, seq_length. auto.
      * intros d _. destruct (@selected_step i cs x ds) as (r & Hr & _ & E); auto. rewrite E.
        destruct (random_step x d Hr) as (r' & E' & R'). rewrite E'. destruct R' as (L' & N' & D').
        apply existsb_In. apply all_listed with (n := S (length cs)); auto.
        -- intros j Hj. apply in_map_iff in Hj as (e & <- & He). rewrite Forall_forall in D'. apply D', describes_lt in He. rewrite app_length in He. cbn in He. lia.
        -- rewrite map_length, L', app_length. cbn [length]. lia.
  - destruct (Nat.eq_dec i (length cs)) as [->|Hne].
    + rewrite (@flat_tally _ (fun _ => true) _ 10).
      * assert (K : forall l : list (list nat), tally (fun _ => true) l = length l).
        { intros l. unfold tally. induction l; cbn; auto. }
        rewrite K. lia.
      * intros ds Hds. cbn iota. assert (Hdl := all_draws_length _ _ Hds).
        destruct (@selected_step (length cs) cs x ds) as (r & Hr & _ & E); auto.
        rewrite (@tally_ext _ _ _ _ (fun d _ => E d)). apply select_new; auto; [|apply ten_different_fresh; auto].
        destruct Hr as (-> & _). lia.
    + rewrite (@flat_tally _ (selected i cs) _ (length cs)).
      * assert (Hi' : i < length cs) by lia. specialize (IH i Hd Hi' Hs). nia.
      * intros ds Hds. assert (Hdl := all_draws_length _ _ Hds).
        destruct (@selected_step i cs x ds) as (r & Hr & E0 & E); auto. rewrite E0.
        rewrite (@tally_ext _ _ _ _ (fun d _ => E d)). apply select_old; auto; [| |apply ten_different_fresh; auto].
        -- destruct Hr as (-> & _). lia.
        -- apply Hr.
Qed.
End Uniform.
