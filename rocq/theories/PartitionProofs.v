(** Lemmas about [ModelPartition]. *)
From Coq Require Import NArith.
From Verif Require Import Base BaseProofs Num ModelNaive ModelVPTree ModelResampler ModelPartition SpecTree SpecPartition
  SeedsProofs VPTreeProofs.
Set Implicit Arguments.
Unset Strict Implicit.

Lemma num_snoc p b : num (p ++ [b]) = 2 * num p + (if b then 1 else 0).
Proof. unfold num. rewrite fold_left_app. reflexivity. Qed.

Lemma num_lt p : num p < 2 ^ length p.
Proof.
  induction p as [|b p IH] using rev_ind; [cbn; lia|].
  rewrite num_snoc, app_length. cbn [length]. rewrite Nat.add_1_r, Nat.pow_succ_r'. destruct b; lia.
Qed.

Lemma pow2_pos k : 1 <= 2 ^ k.
Proof. induction k; [cbn; lia|rewrite Nat.pow_succ_r'; lia]. Qed.

Lemma pow2_gt k : k < 2 ^ k.
Proof. induction k; [cbn; lia|rewrite Nat.pow_succ_r'; lia]. Qed.

Section Region.
Context (F : NumOps) (P : Type) (dist : P -> P -> F) (vp : list (Bisection F P)) (k : nat) (q : P).
Hypothesis Hk : length vp + 1 = 2 ^ k.

Definition step_ok (path : list bool) (j : nat) (b : bool) : Prop :=
  exists bis, nth_error vp (2 ^ j - 1 + num (firstn j path)) = Some bis /\
    b = negb (nleb (dist (b_pt bis) q) (b_r bis)).

Lemma region_loop_spec m : forall pre fuel, length pre + m = k -> m <= fuel ->
  exists suf, length suf = m /\
    region_loop fuel dist vp q (2 ^ length pre - 1 + num pre) = Some (num (pre ++ suf)) /\
    forall j b, nth_error suf j = Some b -> step_ok (pre ++ suf) (length pre + j) b.
Proof.
  induction m as [|m IH]; intros pre fuel Hl Hf.
  - exists []. split; auto. rewrite app_nil_r. assert (Hp : length pre = k) by lia. rewrite Hp.
    split; [|intros [|j] b; discriminate].
    assert (E : nth_error vp (2 ^ k - 1 + num pre) = None) by (apply nth_error_None; lia).
    destruct fuel; cbn [region_loop]; rewrite E; f_equal; lia.
  - assert (Hlt : 2 ^ length pre - 1 + num pre < length vp).
    { pose proof (num_lt pre). pose proof (pow2_pos (length pre)).
      assert (2 ^ (length pre + 1) <= 2 ^ k) by (apply Nat.pow_le_mono_r; lia).
      rewrite Nat.add_1_r, Nat.pow_succ_r' in *. lia. }
    destruct (nth_error vp (2 ^ length pre - 1 + num pre)) as [bis|] eqn:E; [|apply nth_error_None in E; lia].
    destruct fuel as [|fuel]; [lia|].
    set (b := negb (nleb (dist (b_pt bis) q) (b_r bis))).
    destruct (IH (pre ++ [b]) fuel) as (suf & H1 & H2 & H3); [rewrite app_length; cbn; lia|lia|].
    exists (b :: suf). split; [cbn; lia|]. split.
    + cbn [region_loop]. rewrite E. rewrite <- app_assoc in H2. cbn [app] in H2. rewrite <- H2. f_equal.
      rewrite app_length, num_snoc. cbn [length]. rewrite (Nat.add_1_r (length pre)), Nat.pow_succ_r'.
      pose proof (pow2_pos (length pre)). unfold b. destruct (nleb _ _); cbn [negb]; lia.
    + intros [|j] b' Hj; cbn in Hj.
      * injection Hj as <-. exists bis. rewrite Nat.add_0_r. split; [|reflexivity].
        rewrite firstn_app, firstn_all, Nat.sub_diag. cbn [firstn]. rewrite app_nil_r. exact E.
      * apply H3 in Hj. rewrite app_length in Hj. cbn [length] in Hj. rewrite <- app_assoc in Hj. cbn [app] in Hj.
        replace (length pre + S j) with (length pre + 1 + j) by lia. exact Hj.
Qed.

Lemma region_spec : exists path, length path = k /\ region dist vp q = Some (num path) /\
  forall j b, nth_error path j = Some b -> step_ok path j b.
Proof.
  destruct (@region_loop_spec k [] (length vp)) as (path & H1 & H2 & H3); auto.
  - pose proof (pow2_gt k). lia.
  - exists path. auto.
Qed.
End Region.

(** *** Breadth-first traversal of abstract trees *)
Section Bfs.
Context (F : NumOps).
Implicit Types (t : btree F) (nodes : list (Node F)) (vp : list (Bisection F nat)).

Fixpoint forks t : nat := match t with Leaf _ => 0 | Fork _ _ i o => 1 + forks i + forks o end.

Fixpoint tbfs (fuel : nat) (queue : list (btree F)) vp : option (list (Bisection F nat)) :=
  match queue with
  | [] => Some vp
  | t :: queue =>
      match fuel with
      | 0 => None
      | S fuel =>
          match t with
          | Leaf _ => tbfs fuel queue vp
          | Fork v r i o => tbfs fuel (queue ++ [i; o]) (vp ++ [mkBis v r])
          end
      end
  end.

(** node array part [i .. i+n) holds [t] (its forks; leaves are nodes without children) *)
Inductive rep nodes : nat -> nat -> btree F -> Prop :=
| rep_leaf i n pts nd : nth_error nodes i = Some nd -> children nd = None -> rep nodes i n (Leaf pts)
| rep_fork i n m v r off a b : nth_error nodes i = Some (mkNode v (Some (mkChildren r off))) ->
    n = 1 + off + m -> rep nodes (i + 1) off a -> rep nodes (i + 1 + off) m b -> rep nodes i n (Fork v r a b).

Lemma rep_frame nodes nodes' i n t :
  (forall k nd, i <= k < i + n -> nth_error nodes k = Some nd -> children nd <> None -> nth_error nodes' k = Some nd) ->
  (forall k nd, nth_error nodes k = Some nd -> children nd = None ->
     exists nd', nth_error nodes' k = Some nd' /\ children nd' = None) ->
  rep nodes i n t -> rep nodes' i n t.
Proof.
  intros H1 H2 Hr. induction Hr as [i n pts nd Hn Hc|i n m v r off a b Hn E Ha IHa Hb IHb].
  - destruct (H2 _ _ Hn Hc) as (nd' & E1 & E2). econstructor; eauto.
  - econstructor; eauto.
    + apply H1; auto; [lia|discriminate].
    + apply IHa. intros k nd Hk. apply H1. lia.
    + apply IHb. intros k nd Hk. apply H1. lia.
Qed.

Definition disjoint (x y : nat * nat * btree F) : Prop :=
  let '(i, n, _) := x in let '(j, m, _) := y in i + n <= j \/ j + m <= i.

Lemma bfs_tbfs fuel : forall nodes q vp,
  Forall (fun x => rep nodes (fst (fst x)) (snd (fst x)) (snd x)) q -> ForallOrdPairs disjoint q ->
  bfs fuel nodes (map (fun x => fst (fst x)) q) vp = tbfs fuel (map snd q) vp.
Proof.
  induction fuel as [|fuel IH]; intros nodes [|[[i n] t] q] vp Hq Hd; auto.
  inversion Hq as [|? ? Hr Hq']; subst. inversion Hd as [|? ? Hdh Hd']; subst. cbn [fst snd] in *.
  cbn [map bfs tbfs fst snd].
  assert (Hset : forall nd, nth_error nodes i = Some nd -> exists nodes', set_nth i (mkNode 0 None) nodes = Some nodes' /\
    forall j, nth_error nodes' j = if Nat.eqb j i then Some (mkNode 0 None) else nth_error nodes j).
  { intros nd Hnd. destruct (@set_nth_some _ i (@mkNode F 0 None) nodes) as [nodes' E].
    - apply nth_error_Some. congruence.
    - exists nodes'. split; auto. apply set_nth_spec in E. apply E. }
  assert (Hleaf : forall nodes', (forall j, nth_error nodes' j = if Nat.eqb j i then Some (mkNode 0 None) else nth_error nodes j) ->
    forall k nd, nth_error nodes k = Some nd -> children nd = None ->
     exists nd', nth_error nodes' k = Some nd' /\ children nd' = None).
  { intros nodes' Hn k nd Hk Hc. rewrite Hn. destruct (Nat.eqb_spec k i); eauto. }
  inversion Hr as [i' n' pts nd Hn Hc|i' n' m v r off a b Hn E Ha Hb]; subst.
  - destruct (Hset _ Hn) as (nodes' & -> & Hn'). rewrite Hn, Hc. apply IH; auto.
    eapply Forall_impl; [|exact Hq']. intros [[j l] t] Hj. cbn [fst snd] in *.
    eapply rep_frame; [| |exact Hj]; eauto.
    intros k nd' _ Hk Hc'. rewrite Hn'. destruct (Nat.eqb_spec k i); [subst; congruence|auto].
  - destruct (Hset _ Hn) as (nodes' & -> & Hn'). rewrite Hn. cbn [children vantage_pt ch_radius ch_offset].
    specialize (IH nodes' (q ++ [(i + 1, off, a); (i + 1 + off, m, b)]) (vp ++ [mkBis v r])).
    rewrite !map_app in IH. cbn [map fst snd] in IH. apply IH; clear IH.
    + apply Forall_app. split; [|repeat constructor; cbn [fst snd]].
      * rewrite Forall_forall in *. intros [[j l] t] Hj. cbn [fst snd].
        specialize (Hq' _ Hj). specialize (Hdh _ Hj). cbn in Hq', Hdh.
        eapply rep_frame; [| |exact Hq']; eauto.
        intros k nd' Hkr Hk Hc'. rewrite Hn'. destruct (Nat.eqb_spec k i); [lia|auto].
      * eapply rep_frame; [| |exact Ha]; eauto.
        intros k nd' Hkr Hk Hc'. rewrite Hn'. destruct (Nat.eqb_spec k i); [lia|auto].
      * eapply rep_frame; [| |exact Hb]; eauto.
        intros k nd' Hkr Hk Hc'. rewrite Hn'. destruct (Nat.eqb_spec k i); [lia|auto].
    + clear - Hd' Hdh. induction q as [|[[j l] t] q IHq]; cbn.
      * repeat constructor; cbn; lia.
      * inversion Hd' as [|? ? Hh Hd'']; subst. inversion Hdh as [|? ? Hh1 Hdh']; subst.
        constructor; [|apply IHq; auto]. apply Forall_app. split; auto. cbn in Hh1.
        apply Forall_cons; [cbn; lia|]. apply Forall_cons; [cbn; lia|apply Forall_nil].
Qed.

Lemma list_sum_cons a l : list_sum (a :: l) = a + list_sum l.
Proof. reflexivity. Qed.

Lemma tbfs_fuel fuel q vp : (length q + 2 * list_sum (map forks q) <= fuel) ->
  exists out, tbfs fuel q vp = Some out /\ length out = length vp + list_sum (map forks q).
Proof.
  revert q vp. induction fuel as [|fuel IH]; intros [|t q] vp Hf; cbn [length map] in Hf;
    rewrite ?list_sum_cons in Hf; try lia.
  - exists vp. cbn. split; [auto|lia].
  - exists vp. cbn. split; [auto|lia].
  - cbn [tbfs map]. rewrite list_sum_cons. destruct t as [pts|v r i o]; cbn [forks] in *.
    + destruct (IH q vp) as (out & H1 & H2); [lia|]. exists out. split; auto.
    + destruct (IH (q ++ [i; o]) (vp ++ [mkBis v r])) as (out & H1 & H2);
        rewrite ?app_length, ?map_app, ?list_sum_app in *; cbn [length map] in *; rewrite ?list_sum_cons in *;
        change (list_sum []) with 0 in *; [lia|].
      exists out. split; auto. lia.
Qed.

(** *** Levels *)
Definition root t : list (Bisection F nat) := match t with Leaf _ => [] | Fork v r _ _ => [mkBis v r] end.
Definition kids t : list (btree F) := match t with Leaf _ => [] | Fork _ _ i o => [i; o] end.

Fixpoint levels (d : nat) (q : list (btree F)) : list (Bisection F nat) :=
  match d with 0 => [] | S d => flat_map root q ++ levels d (flat_map kids q) end.

Fixpoint full (d : nat) t : Prop :=
  match d, t with
  | 0, Leaf _ => True
  | S d, Fork _ _ i o => full d i /\ full d o
  | _, _ => False
  end.

Lemma tbfs_level fuel q1 : forall q2 vp out, tbfs fuel (q1 ++ q2) vp = Some out ->
  exists fuel', tbfs fuel' (q2 ++ flat_map kids q1) (vp ++ flat_map root q1) = Some out.
Proof.
  revert fuel. induction q1 as [|t q1 IH]; intros fuel q2 vp out H.
  - exists fuel. cbn. rewrite !app_nil_r. exact H.
  - cbn [app] in H. destruct fuel as [|fuel]; cbn [tbfs] in H; [discriminate|].
    destruct t as [pts|v r i o]; cbn [flat_map kids root app].
    + apply (IH fuel). exact H.
    + rewrite <- app_assoc in H. destruct (IH _ _ _ _ H) as [f' Hf]. exists f'.
      rewrite <- !app_assoc in Hf. cbn [app] in Hf. exact Hf.
Qed.

Lemma full_leaves q : Forall (full 0) q -> flat_map kids q = [] /\ flat_map root q = [].
Proof.
  induction 1 as [|t q Ht Hq [IH1 IH2]]; auto. destruct t as [pts|]; [|destruct Ht]. cbn. auto.
Qed.

Lemma full_kids d q : Forall (full (S d)) q -> Forall (full d) (flat_map kids q).
Proof.
  induction 1 as [|t q Ht Hq IH]; cbn; [constructor|]. destruct t as [pts|]; [destruct Ht|].
  cbn in *. constructor; [tauto|]. constructor; [tauto|auto].
Qed.

Lemma tbfs_done fuel q vp out : tbfs fuel [] vp = Some out -> q = @nil (btree F) -> out = vp.
Proof. intros H _. destruct fuel; cbn in H; congruence. Qed.

Lemma tbfs_levels d : forall q vp fuel out, Forall (full d) q -> tbfs fuel q vp = Some out ->
  out = vp ++ levels d q.
Proof.
  induction d as [|d IH]; intros q vp fuel out Hq H.
  - destruct (full_leaves Hq) as [E1 E2]. rewrite <- (app_nil_r q) in H. apply tbfs_level in H. destruct H as [f' H].
    rewrite E1, E2, !app_nil_r in H. cbn. rewrite app_nil_r. eapply tbfs_done; eauto.
  - rewrite <- (app_nil_r q) in H. apply tbfs_level in H. destruct H as [f' H]. cbn [app] in H.
    apply IH in H; [|apply full_kids; auto]. cbn [levels]. rewrite app_assoc. exact H.
Qed.

Lemma full_lengths d q : Forall (full (S d)) q -> length (flat_map kids q) = 2 * length q /\ length (flat_map root q) = length q.
Proof.
  induction 1 as [|t q Ht Hq [IH1 IH2]]; auto. destruct t as [pts|]; [destruct Ht|]. cbn in *. lia.
Qed.

Lemma full_nth d q p v r i o : Forall (full (S d)) q -> nth_error q p = Some (Fork v r i o) ->
  nth_error (flat_map root q) p = Some (mkBis v r) /\
  nth_error (flat_map kids q) (2 * p) = Some i /\ nth_error (flat_map kids q) (2 * p + 1) = Some o.
Proof.
  intros Hq. revert p. induction Hq as [|t q Ht Hq IH]; intros [|p] H; try discriminate.
  - cbn in H. injection H as ->. auto.
  - cbn in H. destruct (IH _ H) as (E1 & E2 & E3). destruct t as [pts|]; [destruct Ht|].
    cbn [flat_map root kids app]. replace (2 * S p) with (S (S (2 * p))) by lia. cbn [nth_error Nat.add]. auto.
Qed.

Lemma heap_levels d : forall q pre, Forall (full d) q -> length pre + 1 = length q ->
  forall p t, nth_error q p = Some t -> heap_order (pre ++ levels d q) (length pre + p) t.
Proof.
  induction d as [|d IH]; intros q pre Hq Hl p t Hp.
  - assert (Ht : full 0 t) by (rewrite Forall_forall in Hq; apply Hq; eapply nth_error_In; eauto).
    destruct t as [pts|]; [|destruct Ht]. cbn. rewrite app_nil_r. apply nth_error_None. lia.
  - assert (Ht : full (S d) t) by (rewrite Forall_forall in Hq; apply Hq; eapply nth_error_In; eauto).
    destruct t as [|v r i o]; [destruct Ht|].
    destruct (full_nth Hq Hp) as (E1 & E2 & E3). destruct (full_lengths Hq) as [L1 L2].
    cbn [levels]. rewrite app_assoc.
    assert (Hl' : length (pre ++ flat_map root q) + 1 = length (flat_map kids q)) by (rewrite app_length; lia).
    pose proof (IH _ _ (full_kids Hq) Hl') as IH'. cbn [heap_order]. split; [|split].
    + rewrite <- app_assoc. rewrite nth_error_app2 by lia. replace (length pre + p - length pre) with p by lia.
      rewrite nth_error_app1; auto. rewrite L2. apply nth_error_Some. congruence.
    + specialize (IH' _ _ E2). rewrite app_length, L2 in IH'.
      replace (2 * (length pre + p) + 1) with (length pre + length q + 2 * p) by lia. exact IH'.
    + specialize (IH' _ _ E3). rewrite app_length, L2 in IH'.
      replace (2 * (length pre + p) + 2) with (length pre + length q + (2 * p + 1)) by lia. exact IH'.
Qed.

Lemma full_forks d t : full d t -> forks t + 1 = 2 ^ d.
Proof.
  revert t. induction d as [|d IH]; intros [pts|v r i o] H; cbn [full] in H; try tauto; auto.
  cbn [forks]. rewrite Nat.pow_succ_r'. destruct H as [H1 H2]. apply IH in H1, H2. lia.
Qed.

(** *** Trees in arrays *)
Context (dist : nat -> nat -> F).

(** number of forks of a tree with [n] points and [d] layers *)
Fixpoint count (n d : nat) : nat :=
  match d with
  | 0 => 0
  | S d => if n <? 2 then 0 else 1 + count ((n - 1) / 2) d + count (n - 1 - (n - 1) / 2) d
  end.

Inductive shape : nat -> list nat -> btree F -> Prop :=
| shape_leaf d pts : length pts < 2 \/ d = 0 -> shape d pts (Leaf pts)
| shape_fork d v r i o ti to :
    (forall p, In p i -> nleb (dist v p) r = true) ->
    (forall p, In p o -> nleb r (dist v p) = true) ->
    (exists p, In p o /\ r = dist v p) ->
    length i <= length o <= length i + 1 -> o <> [] ->
    shape d i ti -> shape d o to -> shape (S d) (v :: i ++ o) (Fork v r ti to).

Lemma shape_points d pts t : shape d pts t -> points t = pts.
Proof. induction 1; cbn; congruence. Qed.

Lemma shape_count d pts t : shape d pts t -> forks t = count (length pts) d.
Proof.
  induction 1 as [d pts H|d v r i o ti to H1 H2 Hb H3 H4 Hi IHi Ho IHo].
  - destruct d; cbn [forks count]; auto. destruct (Nat.ltb_spec (length pts) 2); auto. destruct H; [lia|discriminate].
  - cbn [count length]. destruct (Nat.ltb_spec (S (length (i ++ o))) 2) as [Hlt|Hlt].
    + destruct o; [congruence|]. rewrite app_length in Hlt. cbn in Hlt. lia.
    + cbn [forks]. rewrite app_length in *. rewrite IHi, IHo.
      assert (E : (S (length i + length o) - 1) / 2 = length i).
      { symmetry. apply (Nat.div_unique _ 2 _ (length o - length i)). lia. lia. }
      rewrite E. replace (S (length i + length o) - 1 - length i) with (length o) by lia. reflexivity.
Qed.

Lemma vp_single d (x : Node F) : vp_tree dist d [x] -> children x = None.
Proof.
  intros H. remember [x] as l eqn:E. destruct H as [d l _ Hc|d v r ins outs _ Ho].
  - rewrite E in Hc. inversion Hc; auto.
  - destruct outs; [congruence|]. destruct ins; discriminate.
Qed.

Lemma tree_rep d sub : vp_tree dist d sub -> forall nodes i post,
  nodes = firstn i nodes ++ sub ++ post -> i <= length nodes ->
  (sub = [] -> exists nd, nth_error nodes i = Some nd /\ children nd = None) ->
  exists t, rep nodes i (length sub) t /\ shape (N.to_nat d) (map (@vantage_pt F) sub) t.
Proof.
  induction 1 as [d l Hl Hc|d v r ins outs Hd Ho Hlen Hin Hout Hbd Hti IHi Hto IHo];
    intros nodes i post Hn Hi Hemp.
  - assert (exists nd, nth_error nodes i = Some nd /\ children nd = None) as (nd & E1 & E2).
    { destruct l as [|nd l]; [apply Hemp; auto|]. exists nd. split; [|inversion Hc; auto].
      rewrite Hn, nth_error_app2; rewrite firstn_length_le by lia; [|lia]. rewrite Nat.sub_diag. reflexivity. }
    exists (Leaf (map (@vantage_pt F) l)). split; [econstructor; eauto|]. constructor.
    rewrite map_length. destruct Hl as [Hl| ->]; auto.
  - assert (Hf : length (firstn i nodes) = i) by (apply firstn_length_le; lia).
    assert (Eroot : nth_error nodes i = Some (mkNode v (Some (mkChildren r (length ins))))).
    { rewrite Hn, nth_error_app2 by lia. rewrite Hf, Nat.sub_diag. reflexivity. }
    assert (Hsplit : forall a b c : list (Node F), nodes = a ++ b ++ c -> firstn (length a) nodes = a).
    { intros a b c ->. rewrite firstn_app, firstn_all, Nat.sub_diag. cbn [firstn]. apply app_nil_r. }
    set (n0 := mkNode v (Some (mkChildren r (length ins)))) in *.
    assert (Ea : nodes = (firstn i nodes ++ [n0]) ++ ins ++ (outs ++ post)).
    { etransitivity; [exact Hn|]. cbn [app]. rewrite <- ?app_assoc. cbn [app]. rewrite <- ?app_assoc. reflexivity. }
    assert (Eb : nodes = (firstn i nodes ++ [n0] ++ ins) ++ outs ++ post).
    { etransitivity; [exact Hn|]. cbn [app]. rewrite <- ?app_assoc. cbn [app]. rewrite <- ?app_assoc. reflexivity. }
    assert (La : length (firstn i nodes ++ [n0]) = i + 1) by (rewrite app_length, Hf; reflexivity).
    assert (Lb : length (firstn i nodes ++ [n0] ++ ins) = i + 1 + length ins) by (rewrite !app_length, Hf; cbn; lia).
    pose proof (Hsplit _ _ _ Ea) as Sa. pose proof (Hsplit _ _ _ Eb) as Sb. rewrite La in Sa. rewrite Lb in Sb.
    assert (Lo : length nodes = i + 1 + length ins + (length outs + length post)).
    { rewrite Eb at 1. rewrite app_length, Lb, app_length. reflexivity. }
    destruct (IHo nodes (i + 1 + length ins) post) as (tb & Rb & Hsb).
    { rewrite Sb. exact Eb. } { lia. } { intros E; congruence. }
    destruct (IHi nodes (i + 1) (outs ++ post)) as (ta & Ra & Hsa).
    { rewrite Sa. exact Ea. } { lia. }
    { intros Ei. assert (Hlo : length outs = 1).
      { rewrite Ei in Hlen. cbn [length Nat.add] in Hlen.
        destruct outs as [|x [|y outs]]; [congruence|reflexivity|].
        exfalso. cbn [length] in Hlen. pose proof (Nat.div_le_mono 2 (S (S (length outs))) 2 ltac:(lia) ltac:(lia)) as Hq.
        change (2 / 2) with 1 in Hq. lia. }
      destruct outs as [|x [|y outs]]; try discriminate. exists x. split.
      - rewrite Eb, Ei. rewrite Ei in Lb. cbn [app length] in *. rewrite Nat.add_0_r in Lb.
        rewrite nth_error_app2 by lia. rewrite Lb, Nat.sub_diag. reflexivity.
      - exact (vp_single Hto). }
    exists (Fork v r ta tb). split.
    + eapply rep_fork; eauto. cbn [length]. rewrite app_length. lia.
    + cbn [map]. rewrite map_app. replace (N.to_nat d) with (S (N.to_nat (N.pred d))) by lia. constructor; auto.
      * intros p Hp. apply in_map_iff in Hp. destruct Hp as (n & <- & Hp). rewrite Forall_forall in Hin. auto.
      * intros p Hp. apply in_map_iff in Hp. destruct Hp as (n & <- & Hp). rewrite Forall_forall in Hout. auto.
      * destruct Hbd as (n & Hn1 & Hn2). exists (vantage_pt n). split; auto. apply in_map. auto.
      * rewrite !map_length. 
        pose proof (Nat.div_mod (length ins + length outs) 2 ltac:(lia)) as Hdm. 
        pose proof (Nat.mod_upper_bound (length ins + length outs) 2 ltac:(lia)). lia.
      * destruct outs; [congruence|discriminate].
Qed.

(** *** Numbers of bisections *)
Lemma half_bounds n : let a := n / 2 in let b := n - n / 2 in a + b = n /\ a <= b <= a + 1.
Proof.
  pose proof (Nat.div_mod n 2 ltac:(lia)) as H. pose proof (Nat.mod_upper_bound n 2 ltac:(lia)) as H'. cbv zeta. lia.
Qed.

Lemma count_low k : forall n, 2 ^ S k - 1 <= n <= 3 * 2 ^ k - 1 -> count n (S k) = n - 2 ^ k.
Proof.
  induction k as [|k IH]; intros n Hn.
  - cbn in Hn. cbn [count]. destruct (Nat.ltb_spec n 2); cbn [Nat.pow]; lia.
  - change (count n (S (S k))) with
      (if n <? 2 then 0 else 1 + count ((n - 1) / 2) (S k) + count (n - 1 - (n - 1) / 2) (S k)).
    rewrite !Nat.pow_succ_r' in *. pose proof (pow2_pos k).
    destruct (Nat.ltb_spec n 2); [lia|]. destruct (half_bounds (n - 1)) as [H1 H2].
    cbv zeta in H1, H2. rewrite !IH; rewrite ?Nat.pow_succ_r'; lia.
Qed.

Lemma shape_full k : forall pts t, shape k pts t -> (k = 0 \/ 3 * 2 ^ (k - 1) - 1 <= length pts) -> full k t.
Proof.
  induction k as [|k IH]; intros pts t Hs Hn.
  - inversion Hs; subst; exact I.
  - destruct Hn as [|Hn]; [discriminate|]. replace (S k - 1) with k in Hn by lia. pose proof (pow2_pos k).
    inversion Hs as [? ? H0|? v r i o ti to H1 H2 H2' H3 H4 Hi Ho]; subst; [lia|].
    cbn [full length] in *. rewrite app_length in Hn.
    split; (eapply IH; [eassumption|]); (destruct k as [|k]; [left; reflexivity|right]);
      replace (S k - 1) with k by lia; rewrite Nat.pow_succ_r' in Hn; lia.
Qed.

Lemma shape_balanced k pts t : shape k pts t -> full k t -> balanced dist k t.
Proof.
  intros Hs. induction Hs as [d pts H|d v r i o ti to H1 H2 Hb H3 H4 Hi IHi Ho IHo]; intros Hf.
  - destruct d; [constructor|destruct Hf].
  - destruct Hf as [F1 F2]. constructor; auto; rewrite ?(shape_points Hi), ?(shape_points Ho); auto.
Qed.

Lemma not_pow2 k m : 2 ^ k < m < 2 ^ S k -> is_power_of_two m = false.
Proof.
  intros H. unfold is_power_of_two. apply andb_false_iff. right. apply Nat.eqb_neq.
  assert (E : Nat.log2 m = k) by (apply Nat.log2_unique; [lia|rewrite Nat.pow_succ_r' in *; lia]). rewrite E. lia.
Qed.

Lemma pow2_is k : is_power_of_two (2 ^ k) = true.
Proof.
  unfold is_power_of_two. rewrite Nat.log2_pow2, Nat.eqb_refl by lia. pose proof (pow2_pos k).
  destruct (Nat.ltb_spec 0 (2 ^ k)); [auto|lia].
Qed.

Lemma to_partition_spec d nodes : vp_tree dist d nodes -> nodes <> [] ->
  exists t vp, shape (N.to_nat d) (map (@vantage_pt F) nodes) t /\ length vp = count (length nodes) (N.to_nat d) /\
    to_partition nodes = from_vp vp /\
    (full (N.to_nat d) t -> vp = levels (N.to_nat d) [t]).
Proof.
  intros Ht Hne. destruct (@tree_rep d nodes Ht nodes 0 []) as (t & Hr & Hs); auto.
  { rewrite app_nil_r. reflexivity. } { lia. } { congruence. }
  exists t. pose proof (shape_count Hs) as Hc. rewrite map_length in Hc.
  assert (Hle : forks t <= length nodes).
  { rewrite <- (map_length (@vantage_pt F)). rewrite <- (shape_points Hs). clear. induction t as [pts|v r i IHi o IHo]; cbn; [lia|].
    rewrite app_length. lia. }
  destruct (@tbfs_fuel (2 * length nodes + 1) [t] []) as (out & H1 & H2); [cbn; lia|].
  exists out. split; auto. cbn in H2. rewrite Nat.add_0_r in H2. split; [congruence|]. split.
  - unfold to_partition. destruct nodes as [|nd nodes']; [congruence|]. set (nodes := nd :: nodes') in *.
    pose proof (@bfs_tbfs (2 * length nodes + 1) nodes [(0, length nodes, t)] []) as E. cbn [map fst snd] in E.
    rewrite E, H1; auto. repeat constructor.
  - intros Hf. apply (@tbfs_levels (N.to_nat d) [t] [] _ _ (Forall_cons _ Hf (Forall_nil _)) H1).
Qed.

Lemma full_heap k t : full k t -> heap_order (levels k [t]) 0 t.
Proof.
  intros Hf. apply (@heap_levels k [t] [] (Forall_cons _ Hf (Forall_nil _)) eq_refl 0 t eq_refl).
Qed.

(** *** Where [region] sends the points *)
Lemma region_clear k vp t path p : balanced dist k t -> length vp + 1 = 2 ^ k -> heap_order vp 0 t ->
  clearly_in dist t path p -> length path = k /\ region dist vp p = Some (num path).
Proof.
  intros Hb Hk Hh Hc. unfold region.
  assert (G : forall k t, balanced dist k t -> forall pre n path fuel, k <= fuel -> n = 2 ^ length pre - 1 + num pre ->
    length vp + 1 = 2 ^ (length pre + k) ->
    heap_order vp n t -> clearly_in dist t path p ->
    length path = k /\ region_loop fuel dist vp p n = Some (num (pre ++ path))).
  { clear. intros k t Hb. induction Hb as [pts|k v r i o H1 H2 H3 Hi IHi Ho IHo]; intros pre n path fuel Hf -> Hl Hh Hc.
    - destruct path; [|destruct Hc]. split; auto. cbn in Hh. rewrite Nat.add_0_r in Hl.
      destruct fuel; cbn [region_loop]; rewrite Hh, app_nil_r; f_equal; lia.
    - destruct Hh as (E & Ei & Eo). destruct fuel as [|fuel]; [lia|]. pose proof (pow2_pos (length pre)).
      destruct path as [|[] path]; [destruct Hc| |]; cbn [clearly_in] in Hc.
      + destruct Hc as [Hd Hc].
        destruct (IHo (pre ++ [true]) (2 * (2 ^ length pre - 1 + num pre) + 2) path fuel) as [L R]; auto; try lia.
        { rewrite num_snoc, app_length. cbn [length]. rewrite (Nat.add_1_r (length pre)), Nat.pow_succ_r'. lia. }
        { rewrite app_length. cbn [length]. rewrite <- Nat.add_assoc. exact Hl. }
        split; [cbn; lia|]. cbn [region_loop]. rewrite E. cbn [b_pt b_r]. rewrite Hd, R, <- app_assoc. reflexivity.
      + assert (Hd : nleb (dist v p) r = true).
        { apply H1. clear - Hc. revert path Hc. induction i as [pts|v' r' i IHi o' IHo']; intros [|[] path] Hc; cbn in Hc; try tauto; cbn [points].
          - right. apply in_or_app. right. eapply IHo'. apply Hc.
          - right. apply in_or_app. left. eauto. }
        destruct (IHi (pre ++ [false]) (2 * (2 ^ length pre - 1 + num pre) + 1) path fuel) as [L R]; auto; try lia.
        { rewrite num_snoc, app_length. cbn [length]. rewrite (Nat.add_1_r (length pre)), Nat.pow_succ_r'. lia. }
        { rewrite app_length. cbn [length]. rewrite <- Nat.add_assoc. exact Hl. }
        split; [cbn; lia|]. cbn [region_loop]. rewrite E. cbn [b_pt b_r]. rewrite Hd, R, <- app_assoc. reflexivity. }
  apply (G k t Hb []); auto. pose proof (pow2_gt k). lia.
Qed.
End Bfs.
