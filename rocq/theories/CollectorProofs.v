(** Proofs about the cell collector. *)
From Verif Require Import Base BaseProofs Num ModelCollector SpecCollector.
Set Implicit Arguments.

Notation cid := (fun e => snd (fst e)).

Section TableProofs.
Variable V : Type.
Variable leb lt : V -> V -> bool.
Variable D : V -> Prop.
Hypothesis Htp : total_preorder_on D leb.
Hypothesis Hlt : forall x y, D x -> D y -> lt x y = negb (leb y x).

Lemma leb_refl' x : D x -> leb x x = true.
Proof. intros H. destruct Htp as [T _]. destruct (T x x H H); auto. Qed.

Definition klt (a b : key V) : Prop := key_ltb lt a b = true.

Lemma klt_iff a b : D (fst a) -> D (fst b) ->
  klt a b <-> leb (fst b) (fst a) = false \/ (leb (fst a) (fst b) = true /\ snd a < snd b).
Proof.
  intros Ha Hb. unfold klt, key_ltb. rewrite !Hlt by auto.
  destruct Htp as [T _]. pose proof (T _ _ Ha Hb) as Hc. rewrite orb_true_iff, andb_true_iff, negb_involutive, Nat.ltb_lt, negb_true_iff.
  tauto.
Qed.

Lemma klt_trans a b c : D (fst a) -> D (fst b) -> D (fst c) -> klt a b -> klt b c -> klt a c.
Proof.
  intros Ha Hb Hc. rewrite !klt_iff by auto. destruct Htp as [T TR].
  pose proof (T _ _ Ha Hb); pose proof (T _ _ Hb Hc).
  pose proof (TR _ _ _ Ha Hb Hc). pose proof (TR _ _ _ Hb Hc Ha). pose proof (TR _ _ _ Hc Ha Hb).
  destruct (leb (fst a) (fst b)), (leb (fst b) (fst a)), (leb (fst b) (fst c)), (leb (fst c) (fst b)),
    (leb (fst c) (fst a)) eqn:E5, (leb (fst a) (fst c)) eqn:E6; intuition (try congruence; try lia).
Qed.

Lemma klt_total a b : D (fst a) -> D (fst b) -> snd a <> snd b -> key_ltb lt a b = false -> klt b a.
Proof.
  intros Ha Hb Hn Hf. rewrite klt_iff by auto. destruct Htp as [T _]. pose proof (T _ _ Ha Hb).
  assert (~ klt a b) as Hk by (unfold klt; congruence). rewrite klt_iff in Hk by auto.
  destruct (leb (fst a) (fst b)) eqn:E1, (leb (fst b) (fst a)) eqn:E2; auto; try (intuition congruence).
  right. split; auto. assert (~ snd a < snd b) by tauto. lia.
Qed.

Definition dom (t : table V) : Prop := Forall (fun e => D (fst (fst e))) t.
Definition tsorted (t : table V) : Prop := StronglySorted (fun a b => klt (fst a) (fst b)) t.

Lemma bt_insert_perm k x t : D (fst k) -> dom t -> ~ In (snd k) (map cid t) ->
  Permutation ((k, x) :: t) (bt_insert lt k x t).
Proof.
  intros Hk. induction t as [|[k' x'] t IH]; intros Hd Hn; cbn [bt_insert]; auto.
  inversion Hd as [|? ? Hk' Hd']; subst. cbn in Hk', Hn.
  destruct (key_ltb lt k k') eqn:E1; auto.
  destruct (key_ltb lt k' k) eqn:E2.
  - eapply perm_trans; [apply perm_swap|]. constructor. apply IH; auto.
  - exfalso. assert (klt k' k) as Hc by (apply klt_total; auto; intuition congruence). unfold klt in Hc. congruence.
Qed.

Lemma bt_insert_sorted k x t : D (fst k) -> dom t -> ~ In (snd k) (map cid t) ->
  tsorted t -> tsorted (bt_insert lt k x t).
Proof.
  intros Hk. induction t as [|[k' x'] t IH]; intros Hd Hn Hs; cbn [bt_insert].
  { constructor; constructor. }
  inversion Hd as [|? ? Hk' Hd']; subst. cbn in Hk', Hn.
  pose proof Hs as Hs0. apply StronglySorted_inv in Hs as [Hs Hf].
  destruct (key_ltb lt k k') eqn:E1.
  { constructor; auto. constructor; [exact E1|]. rewrite Forall_forall in Hf |- *. intros e He.
    apply klt_trans with k'; auto. unfold dom in Hd'; rewrite Forall_forall in Hd'; apply Hd'; auto. }
  assert (E2 : klt k' k) by (apply klt_total; auto; intuition congruence).
  rewrite E2. constructor; [apply IH; auto|].
  rewrite Forall_forall in Hf |- *. intros e He.
  apply Permutation_in with (l' := (k, x) :: t) in He; [|symmetry; apply bt_insert_perm; auto].
  destruct He as [<-|He]; auto.
Qed.

Lemma dom_perm t t' : Permutation t t' -> dom t -> dom t'.
Proof. intros Hp H. unfold dom in *. eapply Permutation_Forall; eauto. Qed.

Variable N : NumOps.
Variable val : CellInfo N -> V.

Definition table_inv (cs : list (CellInfo N)) (t : table V) : Prop :=
  tsorted t /\ dom t /\ ten_largest lt val cs t.

Lemma lt_false_trans x y z : D x -> D y -> D z -> lt x y = false -> lt y z = false -> lt x z = false.
Proof.
  intros Hx Hy Hz. rewrite !Hlt, !negb_false_iff by auto. destruct Htp as [_ TR]. intros. apply TR with y; auto.
Qed.
Lemma lt_asym x y : D x -> D y -> lt x y = true -> lt y x = false.
Proof.
  intros Hx Hy. rewrite !Hlt, negb_false_iff, negb_true_iff by auto. destruct Htp as [T _]. destruct (T x y); congruence.
Qed.
Lemma lt_irrefl x : D x -> lt x x = false.
Proof. intros Hx. rewrite Hlt, negb_false_iff by auto. apply leb_refl'; auto. Qed.
Lemma klt_value a b : D (fst a) -> D (fst b) -> klt a b -> lt (fst b) (fst a) = false.
Proof.
  intros Ha Hb. rewrite klt_iff, Hlt, negb_false_iff by auto. destruct Htp as [T _].
  intros [H|[H _]]; auto. destruct (T _ _ Ha Hb); congruence.
Qed.

Lemma ids_bound cs t : ten_largest lt val cs t -> forall i, In i (map cid t) -> i < length cs.
Proof.
  intros (_ & _ & H & _) i Hi. apply in_map_iff in Hi as (((v, j), ids) & <- & Hi). cbn.
  apply H in Hi as (c & Hc & _). apply nth_error_Some. congruence.
Qed.

(** All cells are listed if there are as many entries as cells. *)
Lemma all_listed (l : list nat) n : NoDup l -> (forall i, In i l -> i < n) -> length l = n ->
  forall i, i < n -> In i l.
Proof.
  intros Hd Hb Hl i Hi. assert (incl (seq 0 n) l) as H; [|apply H; apply in_seq; lia].
  apply NoDup_length_incl; auto; [rewrite seq_length; lia|].
  intros j Hj. apply in_seq. specialize (Hb j Hj). lia.
Qed.

Lemma nth_error_snoc A (l : list A) x i y : nth_error (l ++ [x]) i = Some y <->
  (i < length l /\ nth_error l i = Some y) \/ (i = length l /\ x = y).
Proof.
  destruct (lt_eq_lt_dec i (length l)) as [[H|H]|H].
  - rewrite nth_error_app1 by auto. intuition lia.
  - subst. rewrite nth_error_app2, Nat.sub_diag by auto. cbn. split; [intros [= ->]; auto|].
    intros [[? _]|[_ ->]]; auto. lia.
  - rewrite nth_error_app2 by lia. destruct (i - length l) as [|[|k]] eqn:E; cbn; split; intros Hc; try discriminate; try lia; intuition lia.
Qed.

Lemma collect_table_inv cs t c : Forall (fun c => D (val c)) cs -> D (val c) ->
  table_inv cs t ->
  exists t', collect_table lt (length cs) (val c) (c_ids c) t = Some t' /\ table_inv (cs ++ [c]) t'.
Proof.
  intros HDs HD (Hs & Hd & Ht). pose proof (ids_bound Ht) as Hb. destruct Ht as (Hl & Hnd & He & Hlarge).
  assert (Hfresh : ~ In (length cs) (map cid t)) by (intros H; apply Hb in H; lia).
  unfold collect_table, NCELLS. destruct (Nat.ltb_spec (length cs) 10) as [Hc|Hc].
  - set (t' := bt_insert lt (val c, length cs) (c_ids c) t).
    assert (Hp : Permutation (((val c, length cs), c_ids c) :: t) t') by (apply bt_insert_perm; auto).
    exists t'. split; auto. split; [apply bt_insert_sorted; auto|]. split; [eapply dom_perm; eauto; constructor; auto|].
    assert (Hl' : length t' = length (cs ++ [c])).
    { etransitivity; [symmetry; exact (Permutation_length Hp)|]. rewrite app_length. unfold key in *. cbn [length] in *. lia. }
    assert (Hpi : Permutation (length cs :: map cid t) (map cid t')) by (apply (Permutation_map cid Hp)).
    assert (Hnd' : NoDup (map cid t')) by (eapply Permutation_NoDup; eauto; constructor; auto).
    split; [rewrite Hl', app_length; cbn [length]; lia|]. split; auto. split.
    + intros v i ids Hi. apply Permutation_in with (l' := ((val c, length cs), c_ids c) :: t) in Hi; [|symmetry; auto].
      destruct Hi as [[= <- <- <-]|Hi].
      * exists c. rewrite nth_error_snoc. auto.
      * apply He in Hi as (c' & Hc' & Hr). exists c'. rewrite nth_error_snoc. split; auto. left. split; auto. apply nth_error_Some. congruence.
    + intros i c' Hi Hn. exfalso. apply Hn. apply all_listed with (n := length (cs ++ [c])); auto; [|rewrite map_length; auto|].
      * intros j Hj. apply Permutation_in with (l' := length cs :: map cid t) in Hj; [|symmetry; auto].
        rewrite app_length. cbn. destruct Hj as [<-|Hj]; [lia|]. apply Hb in Hj. lia.
      * apply nth_error_Some. congruence.
  - destruct t as [|((s, n), ids0) rest]; [cbn [length] in Hl; lia|].
    inversion Hd as [|? ? Ds Dr]; subst. cbn in Ds. pose proof Hs as Hs0. apply StronglySorted_inv in Hs as [Hs Hf].
    assert (Hmin : forall v j ids, In ((v, j), ids) rest -> D v /\ lt v s = false).
    { intros v j ids Hi. rewrite Forall_forall in Hf. unfold dom in Dr. rewrite Forall_forall in Dr. specialize (Hf _ Hi). specialize (Dr _ Hi). cbn in *. split; auto.
      apply (@klt_value (s, n) (v, j)); auto. }
    assert (Hvals : forall i c', nth_error (cs ++ [c]) i = Some c' -> ~ In i (n :: map cid rest) -> i <> length cs -> lt s (val c') = false).
    { intros i c' Hi Hn Hne. apply nth_error_snoc in Hi as [[Hi1 Hi]|[-> _]]; [|lia].
      eapply Hlarge; [exact Hi|exact Hn|left; reflexivity]. }
    destruct (lt s (val c)) eqn:E.
    + cbn in Hnd. inversion Hnd as [|? ? Hnn Hnd']; subst.
      assert (Hfresh' : ~ In (length cs) (map cid rest)) by (intros H; apply Hfresh; right; auto).
      set (t' := bt_insert lt (val c, length cs) (c_ids c) rest).
      assert (Hp : Permutation (((val c, length cs), c_ids c) :: rest) t') by (apply bt_insert_perm; auto).
      exists t'. split; auto. split; [apply bt_insert_sorted; auto|]. split; [eapply dom_perm; eauto; constructor; auto|].
      assert (Hpi : Permutation (length cs :: map cid rest) (map cid t')) by (apply (Permutation_map cid Hp)).
      split. { etransitivity; [symmetry; exact (Permutation_length Hp)|]. rewrite app_length. unfold key in *. cbn [length] in *. lia. }
      split. { eapply Permutation_NoDup; eauto; constructor; auto. }
      split.
      * intros v i ids Hi. apply Permutation_in with (l' := ((val c, length cs), c_ids c) :: rest) in Hi; [|symmetry; auto].
        destruct Hi as [[= <- <- <-]|Hi].
        -- exists c. rewrite nth_error_snoc. auto.
        -- destruct (He v i ids (or_intror Hi)) as (c' & Hc' & Hr). exists c'. rewrite nth_error_snoc. split; auto. left. split; auto. apply nth_error_Some. congruence.
      * intros i c' Hi Hn v j ids Hj.
        assert (Hni : i <> length cs /\ ~ In i (map cid rest)).
        { split; intros H; apply Hn; apply Permutation_in with (l := length cs :: map cid rest); auto; [left; auto|right; auto]. }
        assert (Hc' : D (val c') /\ lt s (val c') = false).
        { destruct (Nat.eq_dec i n) as [->|Hin].
          - destruct (He s n ids0 (or_introl eq_refl)) as (c2 & Hc2 & <- & _). apply nth_error_snoc in Hi as [[_ Hi]|[? _]]; [|lia].
            assert (c' = c2) by congruence. subst. split; auto. apply lt_irrefl; auto.
          - assert (lt s (val c') = false) by (eapply Hvals; eauto; [intros [?|?]; [congruence|tauto]|tauto]).
            split; auto. apply nth_error_snoc in Hi as [[Hi1 Hi]|[? _]]; [|lia].
            rewrite Forall_forall in HDs. apply HDs. eapply nth_error_In; eauto. }
        destruct Hc' as [Dc' Hc']. apply Permutation_in with (l' := ((val c, length cs), c_ids c) :: rest) in Hj; [|symmetry; auto].
        destruct Hj as [[= <- <- <-]|Hj].
        -- apply lt_false_trans with s; auto. apply lt_asym; auto.
        -- apply Hmin in Hj as [Dv Hj]. apply lt_false_trans with s; auto.
    + exists (((s, n), ids0) :: rest). split; auto. split; auto. split; auto.
      split. { rewrite app_length. cbn [length] in *. lia. } split; auto. split.
      * intros v i ids Hi. destruct (He v i ids Hi) as (c' & Hc' & Hr). exists c'. rewrite nth_error_snoc. split; auto. left. split; auto. apply nth_error_Some. congruence.
      * intros i c' Hi Hn v j ids Hj. apply nth_error_snoc in Hi as [[Hi1 Hi]|[-> <-]].
        -- eapply Hlarge; eauto.
        -- destruct Hj as [[= <- <- <-]|Hj]; auto. apply Hmin in Hj as [Dv Hj]. apply lt_false_trans with s; auto.
Qed.

(** Combining two tables keeps the entries with the ten smallest keys. *)
Definition shifted (n : nat) (t : table V) : table V := map (fun e => ((fst (fst e), snd (fst e) + n), snd e)) t.

Lemma extend_spec n other : forall t, tsorted t -> dom t -> dom other ->
  NoDup (map cid t ++ map cid (shifted n other)) ->
  let r := fold_left (fun t e => bt_insert lt (fst (fst e), snd (fst e) + n) (snd e) t) other t in
  tsorted r /\ Permutation (t ++ shifted n other) r.
Proof.
  induction other as [|[[v i] ids] other IH]; intros t Hs Hd Ho Hnd; cbn [fold_left shifted map].
  - cbn. rewrite app_nil_r. auto.
  - inversion Ho as [|? ? Hv Ho']; subst. cbn in Hv. cbn [fst snd] in *. cbn [shifted map fst snd] in Hnd.
    assert (Hn : ~ In (i + n) (map cid t)).
    { apply NoDup_remove_2 in Hnd. intros H. apply Hnd. apply in_or_app. auto. }
    pose proof (@bt_insert_perm (v, i + n) ids t Hv Hd Hn) as Hp.
    pose proof (@bt_insert_sorted (v, i + n) ids t Hv Hd Hn Hs) as Hs'.
    destruct (IH (bt_insert lt (v, i + n) ids t)) as [H1 H2]; auto.
    + eapply dom_perm; eauto. constructor; auto.
    + eapply Permutation_NoDup; [|exact Hnd].
      apply perm_trans with ((i + n :: map cid t) ++ map cid (shifted n other)).
      * cbn. symmetry. apply Permutation_middle.
      * apply Permutation_app_tail. apply (Permutation_map cid Hp).
    + split; auto. eapply perm_trans; [|exact H2].
      apply perm_trans with ((((v, i + n), ids) :: t) ++ shifted n other).
      * cbn. symmetry. apply Permutation_middle.
      * apply Permutation_app_tail. auto.
Qed.
End TableProofs.

Lemma nat_tp : total_preorder_on (fun _ : nat => True) Nat.leb.
Proof. split; intros *; rewrite ?Nat.leb_le; lia. Qed.
Lemma nat_lt x y : True -> True -> Nat.ltb x y = negb (Nat.leb y x).
Proof. intros _ _. rewrite Nat.leb_antisym, negb_involutive. reflexivity. Qed.

Section CollectorP.
Variable N : NumOps.
Variable D : N -> Prop.
Hypothesis HN : order_on N D.
Implicit Types cs : list (CellInfo N).

Definition cell_dom (c : CellInfo N) : Prop := D (c_radius c) /\ D (c_weight c).

Lemma combine_snoc A B (l : list A) (m : list B) a b : length l = length m ->
  List.combine (l ++ [a]) (m ++ [b]) = List.combine l m ++ [(a, b)].
Proof. revert m. induction l as [|x l IH]; intros [|y m] H; cbn in *; try lia; auto. rewrite IH by lia. auto. Qed.

Lemma first_step cs c l : first_ten cs l ->
  first_ten (cs ++ [c]) (if length cs <? 10 then l ++ [(length cs, c_ids c)] else l).
Proof.
  unfold first_ten. intros ->. rewrite app_length, map_app, seq_app. cbn [map seq length].
  rewrite combine_snoc by (rewrite seq_length, map_length; auto).
  assert (L : length (List.combine (seq 0 (length cs)) (map c_ids cs)) = length cs).
  { rewrite combine_length, seq_length, map_length. lia. }
  rewrite firstn_app, L. destruct (Nat.ltb_spec (length cs) 10) as [H|H].
  - rewrite firstn_all2 by lia. f_equal. destruct (10 - length cs) eqn:E; [lia|]. cbn. rewrite firstn_nil. auto.
  - replace (10 - length cs) with 0 by lia. cbn [firstn]. rewrite app_nil_r. auto.
Qed.

Lemma describes_snoc cs c e : describes cs e -> describes (cs ++ [c]) e.
Proof.
  intros (x & H & E). exists x. split; auto. rewrite nth_error_app1; auto. apply nth_error_Some. congruence.
Qed.
Lemma describes_last cs c : describes (cs ++ [c]) (length cs, c_ids c).
Proof. exists c. split; auto. cbn. rewrite nth_error_app2, Nat.sub_diag by auto. reflexivity. Qed.
Lemma describes_lt cs e : describes cs e -> fst e < length cs.
Proof. intros (x & H & _). apply nth_error_Some. congruence. Qed.

Lemma random_step cs c l idx : ten_different cs l ->
  exists l', collect_random (length cs) idx (c_ids c) l = Some l' /\ ten_different (cs ++ [c]) l'.
Proof.
  intros (Hl & Hnd & Hd). unfold collect_random, NCELLS.
  assert (Hfresh : ~ In (length cs) (map fst l)).
  { intros H. apply in_map_iff in H as (e & E & H). rewrite Forall_forall in Hd. apply Hd, describes_lt in H. lia. }
  assert (Hd' : Forall (describes (cs ++ [c])) l) by (eapply Forall_impl; [|exact Hd]; intros e; apply describes_snoc).
  destruct (Nat.ltb_spec (length cs) 10) as [H|H].
  - eexists. split; [reflexivity|]. split; [rewrite !app_length; cbn [length]; lia|]. split.
    + rewrite map_app. cbn. eapply Permutation_NoDup; [apply Permutation_cons_append|]. constructor; auto.
    + apply Forall_app. split; auto. constructor; auto. apply describes_last.
  - destruct (Nat.ltb_spec idx (length l)) as [Hi|Hi].
    + destruct (nth_error l idx) as [y|] eqn:E; [|apply nth_error_None in E; lia].
      destruct (set_nth_split idx (length cs, c_ids c) l E) as (l1 & l2 & -> & <- & ->).
      eexists. split; [reflexivity|].
      split; [rewrite !app_length in *; cbn [length] in *; lia|]. rewrite map_app in *. cbn [map fst] in *. split.
      * eapply Permutation_NoDup; [apply Permutation_middle|]. apply NoDup_remove in Hnd as [Hnd _]. constructor; auto.
        intros Hc. apply Hfresh. apply in_app_iff in Hc. apply in_app_iff. cbn. tauto.
      * apply Forall_app in Hd' as [Ha Hb]. inversion Hb; subst. apply Forall_app. split; auto. constructor; auto. apply describes_last.
    + eexists. split; [reflexivity|]. split; [rewrite app_length; cbn [length]; lia|]. auto.
Qed.

Definition coll_inv cs (c : Collector N) : Prop :=
  co_count c = length cs /\
  first_ten cs (co_first c) /\ ten_different cs (co_random c) /\
  table_inv nltb D c_radius cs (co_radius c) /\
  table_inv Nat.ltb (fun _ => True) nmembers cs (co_members c) /\
  table_inv nltb D c_weight cs (co_weight c).

Lemma coll_inv_good cs c : coll_inv cs c -> good_collection cs c.
Proof.
  intros (H1 & H2 & H3 & (_ & _ & H4) & (_ & _ & H5) & (_ & _ & H6)). repeat (split; auto).
Qed.

Lemma table_inv_nil V (lt : V -> V -> bool) (D' : V -> Prop) (val : CellInfo N -> V) : table_inv lt D' val [] [].
Proof.
  split; [constructor|]. split; [constructor|]. split; [reflexivity|]. split; [constructor|]. split; intros; [destruct H|contradiction].
Qed.
Lemma coll_inv_new : coll_inv [] co_new.
Proof.
  split; [reflexivity|]. split; [reflexivity|]. split.
  { split; [reflexivity|]. split; constructor. }
  split; [apply table_inv_nil|]. split; apply table_inv_nil.
Qed.

Lemma collect_inv cs c x idx : Forall cell_dom cs -> cell_dom x -> coll_inv cs c ->
  exists c', collect c x idx = Some c' /\ coll_inv (cs ++ [x]) c'.
Proof.
  intros Hcs [Hr Hw] (H1 & H2 & H3 & H4 & H5 & H6). destruct HN as [Htp Hlt]. unfold collect. rewrite H1.
  destruct (@collect_table_inv N nleb nltb D Htp Hlt N c_radius cs (co_radius c) x) as (t1 & E1 & I1); auto.
  { eapply Forall_impl; [|exact Hcs]. intros a [? ?]; auto. }
  destruct (@collect_table_inv nat Nat.leb Nat.ltb _ nat_tp nat_lt N nmembers cs (co_members c) x) as (t2 & E2 & I2); auto.
  { apply Forall_forall. auto. }
  destruct (@collect_table_inv N nleb nltb D Htp Hlt N c_weight cs (co_weight c) x) as (t3 & E3 & I3); auto.
  { eapply Forall_impl; [|exact Hcs]. intros a [? ?]; auto. }
  destruct (random_step x idx H3) as (r & E4 & I4).
  rewrite E1, E2, E3, E4. eexists. split; [reflexivity|].
  split; [cbn; rewrite app_length; cbn; lia|]. split; [apply first_step; auto|]. auto.
Qed.

Lemma collect_all_inv draw cs' : forall cs n c, Forall cell_dom cs -> Forall cell_dom cs' -> coll_inv cs c ->
  exists c', collect_all draw n cs' c = Some c' /\ coll_inv (cs ++ cs') c'.
Proof.
  induction cs' as [|x cs' IH]; intros cs n c H1 H2 H3; cbn.
  - exists c. rewrite app_nil_r. auto.
  - inversion H2; subst. destruct (@collect_inv cs c x (draw n)) as (c1 & E1 & I1); auto. rewrite E1.
    destruct (IH (cs ++ [x]) (S n) c1) as (c2 & E2 & I2); auto.
    { apply Forall_app. split; auto. }
    exists c2. rewrite <- app_assoc in I2. auto.
Qed.

(** *** Combining *)
Definition pick_ok (pick : nat -> nat) : Prop := forall n, 0 < n -> pick n < n.

Lemma shrink_spec pick fuel : pick_ok pick -> forall l, length l <= fuel + 10 ->
  exists l' dropped, shrink fuel pick l = Some l' /\ Permutation l (l' ++ dropped) /\ length l' = Nat.min 10 (length l).
Proof.
  intros Hp. induction fuel as [|f IH]; intros l Hl; cbn [shrink]; unfold NCELLS; destruct (Nat.leb_spec (length l) 10) as [H|H].
  - exists l, []. rewrite app_nil_r. repeat split; auto. lia.
  - lia.
  - exists l, []. rewrite app_nil_r. repeat split; auto. lia.
  - destruct (@swap_remove_some _ (pick (length l)) l) as [l1 E]; [apply Hp; lia|].
    rewrite E. destruct (swap_remove_perm _ _ E) as (x & _ & Hx).
    pose proof (Permutation_length Hx) as L. cbn in L.
    destruct (IH l1) as (l' & dr & E' & P & L'); [lia|].
    exists l', (x :: dr). split; auto. split; [|lia].
    eapply perm_trans; [exact Hx|]. eapply perm_trans; [apply perm_skip; exact P|]. apply Permutation_middle.
Qed.

Lemma describes_app_r cs1 cs2 e : describes cs2 e -> describes (cs1 ++ cs2) (fst e + length cs1, snd e).
Proof.
  intros (x & H & E). exists x. split; auto. cbn [fst snd]. rewrite nth_error_app2 by lia. rewrite Nat.add_sub. auto.
Qed.
Lemma describes_app_l cs1 cs2 e : describes cs1 e -> describes (cs1 ++ cs2) e.
Proof. intros (x & H & E). exists x. split; auto. rewrite nth_error_app1; auto. apply nth_error_Some. congruence. Qed.

Lemma nodup_shift (a b : list nat) n : NoDup a -> NoDup b -> (forall i, In i a -> i < n) -> NoDup (a ++ map (fun i => i + n) b).
Proof.
  intros Ha Hb H. induction a as [|x a IH]; cbn.
  - induction b; cbn; constructor; inversion Hb; subst; auto. rewrite in_map_iff. intros (y & Hy & Hin). assert (y = a) by lia. subst; auto.
  - inversion Ha; subst. constructor; [|apply IH; auto; intros; apply H; right; auto].
    rewrite in_app_iff, in_map_iff. intros [?|(y & Hy & _)]; auto. specialize (H x (or_introl eq_refl)). lia.
Qed.

Lemma random_combine pick cs1 cs2 r1 r2 : pick_ok pick -> ten_different cs1 r1 -> ten_different cs2 r2 ->
  exists l, shrink (length (r1 ++ map (fun '(id, ev) => (id + length cs1, ev)) r2)) pick (r1 ++ map (fun '(id, ev) => (id + length cs1, ev)) r2) = Some l /\
    ten_different (cs1 ++ cs2) l.
Proof.
  intros Hp (L1 & N1 & D1) (L2 & N2 & D2). set (u := r1 ++ _).
  destruct (@shrink_spec pick (length u) Hp u) as (l & dr & E & P & L); [lia|]. exists l. split; auto.
  assert (Hu : NoDup (map fst u)).
  { unfold u. rewrite map_app, map_map.
    replace (map (fun x => fst (let '(id, ev) := x in (id + length cs1, ev))) r2) with (map (fun i => i + length cs1) (map fst r2))
      by (rewrite map_map; apply map_ext; intros [? ?]; reflexivity).
    apply nodup_shift; auto.
    intros i Hi. apply in_map_iff in Hi as (e & <- & Hi). rewrite Forall_forall in D1. apply describes_lt, D1; auto. }
  assert (Hd : Forall (describes (cs1 ++ cs2)) u).
  { unfold u. apply Forall_app. split.
    - eapply Forall_impl; [|exact D1]. intros; apply describes_app_l; auto.
    - apply Forall_forall. intros e He. apply in_map_iff in He as ([i ev] & <- & He). rewrite Forall_forall in D2.
      apply (@describes_app_r cs1 cs2 (i, ev)). auto. }
  split; [|split].
  - rewrite L. unfold u. rewrite !app_length, map_length. lia.
  - apply (Permutation_map fst) in P. rewrite map_app in P. eapply Permutation_NoDup in Hu; [|exact P].
    clear - Hu. induction (map fst l) as [|x q IH]; cbn in *; constructor; inversion Hu; subst; auto. rewrite in_app_iff in *. tauto.
  - eapply Permutation_Forall in Hd; [|exact P]. apply Forall_app in Hd. tauto.
Qed.
End CollectorP.
