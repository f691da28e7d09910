(** Lemmas about [ModelVPTree]. *)
From Coq Require Import NArith.
From Verif Require Import Base BaseProofs Num ModelNaive ModelVPTree SpecSearch SpecTree RunProofs
  RunProofs2.
Set Implicit Arguments.

Lemma pow_big n d : (n <= d -> n < 2 ^ N.succ d)%N.
Proof. intros H. rewrite N.pow_succ_r'. pose proof (N.pow_gt_lin_r 2 d). lia. Qed.

Section Tree.
Context (F : NumOps) (D : F -> Prop).
Hypothesis Hord : order_on F D.
Context (sort : sorter).
Hypothesis Hsort : sort_ok sort.
Context (dist : nat -> nat -> F).

Notation pt_of := (fun x : F * Node F => vantage_pt (snd x)).
Notation vps := (map (@vantage_pt F)).

Lemma fst_leb_pre (l : list (F * Node F)) :
  (forall x, In x l -> D (fst x)) -> total_preorder_on (fun x => In x l) fst_leb.
Proof.
  intros H. destruct Hord as [[Htot Htr] _]. unfold fst_leb. split.
  - intros x y Hx Hy. auto.
  - intros x y z Hx Hy Hz. apply Htr; auto.
Qed.

Lemma build_tree_spec fuel d pts :
  length pts < fuel ->
  Forall (fun x => children (snd x) = None) pts ->
  (forall p q, In p (map pt_of pts) -> In q (map pt_of pts) -> D (dist p q)) ->
  exists out, build_tree fuel sort dist d pts = Some out /\
    Permutation (map pt_of pts) (map pt_of out) /\
    vp_tree dist d (map snd out).
Proof.
  revert d pts. induction fuel as [|fuel IH]; intros d pts Hf Hc HD; [lia|].
  cbn [build_tree].
  destruct ((length pts <? 2) || N.eqb d 0) eqn:Eg.
  { exists pts. split; auto. split; auto. apply vp_flat.
    - rewrite map_length. apply orb_true_iff in Eg. destruct Eg as [E|E].
      + left. apply Nat.ltb_lt in E. auto.
      + right. apply N.eqb_eq in E. auto.
    - apply Forall_forall. intros n Hn. apply in_map_iff in Hn. destruct Hn as (x & <- & Hx).
      rewrite Forall_forall in Hc. auto. }
  apply orb_false_iff in Eg. destruct Eg as [E1 E2].
  apply Nat.ltb_ge in E1. apply N.eqb_neq in E2.
  destruct (swap_some pts (i := 0) (j := length pts - 1)) as [pts' Es]; try lia.
  rewrite Es. pose proof (swap_perm _ _ _ Es) as Hp.
  destruct pts' as [|vp rest]; [apply Permutation_length in Hp; cbn in Hp; lia|].
  set (v := vantage_pt (snd vp)).
  set (rest1 := map _ rest).
  assert (Hlen : length pts = S (length rest)) by (apply Permutation_length in Hp; exact Hp).
  assert (Hl1 : length rest1 = length rest) by apply map_length.
  assert (Hpt1 : map pt_of rest1 = map pt_of rest).
  { unfold rest1. rewrite map_map. apply map_ext. intros [? ?]; reflexivity. }
  assert (Hin1 : forall x, In x rest1 -> fst x = dist v (vantage_pt (snd x)) /\
     In (vantage_pt (snd x)) (map pt_of rest)).
  { intros x Hx. split.
    - unfold rest1 in Hx. apply in_map_iff in Hx. destruct Hx as ([d0 n0] & <- & _). reflexivity.
    - rewrite <- Hpt1. apply in_map with (f := pt_of) in Hx. exact Hx. }
  assert (Hinv : In v (map pt_of pts)).
  { apply (Permutation_in _ (Permutation_sym (Permutation_map pt_of Hp))). left; reflexivity. }
  assert (Hinr : forall p, In p (map pt_of rest) -> In p (map pt_of pts)).
  { intros p Hpin. apply (Permutation_in _ (Permutation_sym (Permutation_map pt_of Hp))). right; auto. }
  assert (Hpre : total_preorder_on (fun x => In x rest1) fst_leb).
  { apply fst_leb_pre. intros x Hx. destruct (Hin1 x Hx) as [-> Hx']. auto. }
  destruct (Hsort _ Hpre) as [Hps Hos].
  set (rest2 := sort fst_leb rest1) in *.
  assert (Hl2 : length rest2 = length rest) by (rewrite <- (Permutation_length Hps); auto).
  set (m := length rest2 / 2).
  assert (Hm : m < length rest2) by (apply Nat.div_lt; lia).
  destruct (skipn m rest2) as [|[r n0] out0] eqn:Eo.
  { assert (length (skipn m rest2) = 0) by (rewrite Eo; auto). rewrite skipn_length in H. lia. }
  set (inside := firstn m rest2) in *.
  assert (Hsplit : rest2 = inside ++ (r, n0) :: out0) by (rewrite <- Eo; symmetry; apply firstn_skipn).
  assert (Hli : length inside = m) by (apply firstn_length_le; lia).
  assert (Hlo : length ((r, n0) :: out0) = length rest2 - m) by (rewrite <- Eo; apply skipn_length).
  assert (Hin2 : forall x, In x rest2 -> In x rest1)
    by (intros x; apply Permutation_in, Permutation_sym; auto).
  assert (Hc1 : Forall (fun x => children (snd x) = None) rest1).
  { apply Forall_forall. intros x Hx. unfold rest1 in Hx. apply in_map_iff in Hx.
    destruct Hx as ([d0 nn] & <- & Hx). cbn. rewrite Forall_forall in Hc.
    apply (Hc (d0, nn)). apply (Permutation_in _ (Permutation_sym Hp)). right; auto. }
  assert (Hsub : forall l, incl l rest2 -> Forall (fun x => children (snd x) = None) l /\
     (forall p q, In p (map pt_of l) -> In q (map pt_of l) -> D (dist p q))).
  { intros l Hl. split.
    - apply Forall_forall. intros x Hx. rewrite Forall_forall in Hc1. auto.
    - assert (Hq : forall p, In p (map pt_of l) -> In p (map pt_of pts)).
      { intros p Hpin. apply in_map_iff in Hpin. destruct Hpin as (x & <- & Hx).
        apply Hinr. apply Hin1. auto. }
      intros p q Hp' Hq'. auto. }
  destruct (Hsub inside) as [Hci HDi]; [rewrite Hsplit; intros x Hx; apply in_or_app; auto|].
  destruct (Hsub ((r, n0) :: out0)) as [Hco HDo]; [rewrite Hsplit; intros x Hx; apply in_or_app; auto|].
  destruct (IH (N.pred d) inside) as (i' & Ei & Pi & Ti); auto; [lia|].
  destruct (IH (N.pred d) ((r, n0) :: out0)) as (o' & Eo' & Po & To); auto; [lia|].
  rewrite Ei, Eo'. eexists. split; [reflexivity|].
  assert (HPr : Permutation (map pt_of rest) (map pt_of i' ++ map pt_of o')).
  { rewrite <- Hpt1. rewrite (Permutation_map pt_of Hps). rewrite Hsplit, map_app.
    apply Permutation_app; auto. }
  split.
  - rewrite (Permutation_map pt_of Hp). cbn [map]. constructor. rewrite map_app. exact HPr.
  - cbn [map snd]. rewrite map_app.
    replace m with (length (map snd i')).
    2:{ rewrite map_length. apply Permutation_length in Pi. rewrite !map_length in Pi. lia. }
    assert (Hio : forall x y, In x inside -> In y ((r, n0) :: out0) -> nleb (fst x) (fst y) = true).
    { unfold rest2 in Hos. fold rest2 in Hos. rewrite Hsplit in Hos. apply ordered_app in Hos.
      destruct Hos as (_ & _ & H). exact H. }
    assert (Hoo : forall y, In y out0 -> nleb r (fst y) = true).
    { rewrite Hsplit in Hos. apply ordered_app in Hos. destruct Hos as (_ & H & _).
      inversion H as [|? ? ? Hr]; subst. rewrite Forall_forall in Hr. intros y Hy. apply (Hr y Hy). }
    assert (Hr : r = dist v (vantage_pt n0)).
    { destruct (Hin1 (r, n0)) as [H _]; [apply Hin2; rewrite Hsplit; apply in_or_app; right; left; auto|].
      exact H. }
    assert (Hback : forall l l', Permutation (map pt_of l) (map pt_of l') -> incl l rest2 ->
      forall n, In n (map snd l') -> exists x, In x l /\ fst x = dist v (vantage_pt n)).
    { intros l l' HP Hincl n Hn. apply in_map_iff in Hn. destruct Hn as (y & <- & Hy).
      assert (Hq : In (vantage_pt (snd y)) (map pt_of l)).
      { apply (Permutation_in _ (Permutation_sym HP)). apply in_map with (f := pt_of) in Hy. exact Hy. }
      apply in_map_iff in Hq. destruct Hq as (x & Hx & Hxl). exists x. split; auto.
      rewrite <- Hx. apply Hin1. auto. }
    apply vp_split; auto.
    + intros E. apply Permutation_length in Po. rewrite !map_length in Po.
      apply (f_equal (@length _)) in E. rewrite map_length in E. cbn in Po, E. lia.
    + rewrite !map_length. apply Permutation_length in Pi, Po. rewrite !map_length in Pi, Po.
      rewrite <- Pi, <- Po. rewrite Hli, Hlo. replace (m + (length rest2 - m)) with (length rest2) by lia.
      reflexivity.
    + apply Forall_forall. intros n Hn.
      destruct (Hback inside i' Pi) with (n := n) as (x & Hx & <-); auto.
      { rewrite Hsplit. intros x Hx. apply in_or_app; auto. }
      apply (Hio x (r, n0)); auto. left; auto.
    + apply Forall_forall. intros n Hn.
      destruct (Hback ((r, n0) :: out0) o' Po) with (n := n) as (x & Hx & <-); auto.
      { rewrite Hsplit. intros x Hx. apply in_or_app; auto. }
      destruct Hx as [<-|Hx]; [|apply Hoo; auto]. cbn.
      destruct Hord as [[Htot _] _]. assert (Dr : D r).
      { rewrite Hr. apply HD; auto. apply Hinr. apply (Hin1 (r, n0)). apply Hin2.
        rewrite Hsplit. apply in_or_app. right; left; auto. }
      destruct (Htot r r Dr Dr); auto.
    + assert (Hq : In (vantage_pt n0) (map pt_of o')).
      { apply (Permutation_in _ Po). left; reflexivity. }
      apply in_map_iff in Hq. destruct Hq as (y & Hy & Hyo). exists (snd y).
      split; [apply in_map; auto|]. rewrite Hy. exact Hr.
Qed.

(** Parallel construction gives the same array as sequential construction. *)
Lemma par_build_eq m fuel d pts :
  2 <= m -> par_build_tree fuel sort m dist d pts = build_tree fuel sort dist d pts.
Proof.
  intros Hm. revert d pts. induction fuel as [|fuel IH]; intros d pts; auto.
  cbn [par_build_tree].
  destruct (N.eqb d 0) eqn:Ed.
  { cbn [build_tree]. rewrite Ed, orb_true_r. reflexivity. }
  destruct (length pts <? m) eqn:El; [reflexivity|].
  apply Nat.ltb_ge in El. cbn [build_tree]. rewrite Ed, orb_false_r.
  replace (length pts <? 2) with false by (symmetry; apply Nat.ltb_ge; lia).
  destruct (swap 0 (length pts - 1) pts) as [[|vp rest]|]; auto.
  destruct (skipn _ _) as [|[r n0] o]; auto.
  rewrite !IH. reflexivity.
Qed.

Context (choose : chooser).
Hypothesis Hchoose : choose_ok choose.

Lemma find_corner_lt pts pos :
  (forall p q, In p pts -> In q pts -> D (dist p q)) ->
  find_corner_pt choose dist pts = Some pos -> pos < length pts.
Proof.
  intros HD. unfold find_corner_pt. destruct pts as [|p t]; [discriminate|].
  assert (Hpre : total_preorder_on (fun x => In x t) (fun a b => nleb (dist p b) (dist p a))).
  { destruct Hord as [[Htot Htr] _]. split.
    - intros x y Hx Hy. apply or_comm, Htot; apply HD; cbn; auto.
    - intros x y z Hx Hy Hz H1 H2. apply (Htr _ (dist p y) _); auto; apply HD; cbn; auto. }
  pose proof (Hchoose _ Hpre) as Hc. destruct (choose _ t) as [k|].
  - destruct Hc as (x & Hx & _). intros H. injection H as <-.
    assert (k < length t) by (apply nth_error_Some; congruence). cbn. lia.
  - intros H. injection H as <-. cbn. lia.
Qed.

Lemma init_nodes_spec pts :
  (forall p q, In p pts -> In q pts -> D (dist p q)) ->
  exists nodes, init_nodes choose dist pts = Some nodes /\
    Permutation pts (map pt_of nodes) /\ Forall (fun x => children (snd x) = None) nodes.
Proof.
  intros HD. unfold init_nodes. set (nodes := map _ pts).
  assert (Hpt : map pt_of nodes = pts).
  { unfold nodes. rewrite map_map. rewrite <- (map_id pts) at 2. apply map_ext. reflexivity. }
  assert (Hc : Forall (fun x => children (snd x) = None) nodes).
  { apply Forall_forall. intros x Hx. apply in_map_iff in Hx. destruct Hx as (p & <- & _). reflexivity. }
  destruct (find_corner_pt choose dist pts) as [pos|] eqn:E.
  - apply find_corner_lt in E; auto.
    assert (Hl : length nodes = length pts) by apply map_length.
    destruct (swap_some nodes (i := pos) (j := length nodes - 1)) as [nodes' Es]; try lia.
    rewrite Es. exists nodes'. pose proof (swap_perm _ _ _ Es) as Hp. split; auto. split.
    + rewrite <- Hpt at 1. apply Permutation_map; auto.
    + eapply Permutation_Forall; eauto.
  - exists nodes. rewrite Hpt. auto.
Qed.

Lemma tree_of_spec depth pts :
  (forall p q, In p pts -> In q pts -> D (dist p q)) ->
  exists nodes, tree_of sort choose dist depth pts = Some nodes /\
    Permutation pts (vps nodes) /\ vp_tree dist depth nodes.
Proof.
  intros HD. unfold tree_of. destruct (init_nodes_spec _ HD) as (nodes & -> & Hp & Hc).
  destruct (@build_tree_spec (S (length nodes)) depth nodes) as (out & -> & Hpo & Ht); auto.
  { intros p q Hpin Hq. apply HD; apply (Permutation_in _ (Permutation_sym Hp)); auto. }
  exists (map snd out). split; auto. split; auto. rewrite map_map. rewrite Hp. exact Hpo.
Qed.

Lemma par_tree_eq m depth pts :
  2 <= m -> par_tree_of sort choose m dist depth pts = tree_of sort choose dist depth pts.
Proof.
  intros Hm. unfold par_tree_of, tree_of. destruct (init_nodes choose dist pts); auto.
  rewrite par_build_eq; auto.
Qed.

(** *** Search *)
Context (S0 : nat -> Prop).
Hypothesis HD : forall p q, S0 p -> S0 q -> D (dist p q).
Hypothesis HDsub : forall q v z, S0 q -> S0 v -> S0 z ->
  D (nabs (nsub (dist q v) (dist v z))) /\ D (nabs (nsub (dist v z) (dist q v))).
Hypothesis Hprune : prune_sound S0 dist.
Context (max : F).
Hypothesis HDmax : D max.

Section Query.
Context (pt : nat).
Hypothesis Hpt : S0 pt.

Definition allowed (exclude : list nat) y := y <> pt /\ ~ In y exclude.

Definition cache_ok (c : list (nat * F)) := forall k d, cache_get c k = Some d -> d = dist pt k.

Lemma cache_entry_ok c k d' c' :
  cache_ok c -> cache_entry c k (dist pt k) = (d', c') -> d' = dist pt k /\ cache_ok c'.
Proof.
  intros Hc. unfold cache_entry. destruct (cache_get c k) as [d|] eqn:E.
  - intros H. injection H as <- <-. auto.
  - intros H. injection H as <- <-. split; auto. intros k' d Hk. cbn in Hk.
    destruct (Nat.eqb_spec k' k).
    + injection Hk as <-. congruence.
    + auto.
Qed.

Lemma lt_le x y : D x -> D y -> nltb x y = true -> nleb x y = true.
Proof.
  intros Hx Hy H. destruct Hord as [[Htot _] Hlt]. rewrite Hlt in H by auto.
  apply negb_true_iff in H. destruct (Htot x y Hx Hy); congruence.
Qed.

(** Description of a (partial) result. *)
Definition res_valid (exclude : list nat) (idx : nat) (sub : list (Node F)) (res : option (nat * F)) :=
  forall i d, res = Some (i, d) -> idx <= i /\ exists n, nth_error sub (i - idx) = Some n /\
    allowed exclude (vantage_pt n) /\ d = dist pt (vantage_pt n).

Definition res_covers (exclude : list nat) (ys : list nat) (res : option (nat * F)) :=
  forall y, In y ys -> allowed exclude y -> nleb (dist pt y) max = true ->
    exists i d, res = Some (i, d) /\ nleb d (dist pt y) = true.

Lemma res_valid_D exclude idx sub res : (forall n, In n sub -> S0 (vantage_pt n)) ->
  res_valid exclude idx sub res -> forall i d, res = Some (i, d) -> D d.
Proof.
  intros HS Hv i d H. destruct (Hv i d H) as (_ & n & Hn & _ & ->). apply HD; auto.
  apply HS. eapply nth_error_In; eauto.
Qed.

Lemma nearer_valid exclude idx sub a b :
  res_valid exclude idx sub a -> res_valid exclude idx sub b -> res_valid exclude idx sub (nearer a b).
Proof.
  intros Ha Hb i d H. destruct a as [[i1 d1]|], b as [[i2 d2]|]; cbn in H; try discriminate.
  - destruct (nleb d1 d2); [apply Ha|apply Hb]; auto.
  - apply Ha; auto.
  - apply Hb; auto.
Qed.

Lemma nearer_covers exclude idx sub ys zs a b :
  (forall n, In n sub -> S0 (vantage_pt n)) ->
  (forall y, In y ys \/ In y zs -> S0 y) ->
  res_valid exclude idx sub a -> res_valid exclude idx sub b ->
  res_covers exclude ys a -> res_covers exclude zs b -> res_covers exclude (ys ++ zs) (nearer a b).
Proof.
  intros HS HSy Va Vb Ca Cb y Hy Hal Hmax.
  pose proof (res_valid_D HS Va) as DA. pose proof (res_valid_D HS Vb) as DB.
  destruct Hord as [[Htot Htr] _].
  apply in_app_or in Hy. assert (Hy0 : S0 y) by (apply HSy; auto).
  pose proof (HD Hpt Hy0) as Dy.
  destruct Hy as [Hy|Hy].
  - destruct (Ca y Hy Hal Hmax) as (i & d & -> & Hle). destruct b as [[i2 d2]|]; cbn.
    + destruct (nleb d d2) eqn:E; eauto. exists i2, d2. split; auto.
      apply (Htr _ d _); eauto. destruct (Htot d d2); eauto. congruence.
    + eauto.
  - destruct (Cb y Hy Hal Hmax) as (i & d & -> & Hle). destruct a as [[i2 d2]|]; cbn.
    + destruct (nleb d2 d) eqn:E; eauto. exists i2, d2. split; auto.
      apply (Htr _ d _); eauto.
    + eauto.
Qed.

Lemma res_valid_shift exclude idx off sub sub' pre post res :
  sub = pre ++ sub' ++ post -> length pre = off ->
  res_valid exclude (idx + off) sub' res -> res_valid exclude idx sub res.
Proof.
  intros -> Hl Hv i d H. destruct (Hv i d H) as (Hi & n & Hn & Ha & Hd).
  split; [lia|]. exists n. split; auto.
  rewrite nth_error_app2 by lia. rewrite nth_error_app1.
  - replace (i - idx - length pre) with (i - (idx + off)) by lia. exact Hn.
  - replace (i - idx - length pre) with (i - (idx + off)) by lia. apply nth_error_Some. congruence.
Qed.

Lemma search_spec fuel : forall d sub idx exclude cache,
  length sub < fuel -> (N.of_nat (length sub) < 2 ^ N.succ d)%N ->
  vp_tree dist d sub -> (forall n, In n sub -> S0 (vantage_pt n)) -> cache_ok cache ->
  exists res cache', nearest_in_subtree fuel dist max sub pt idx exclude cache = Some (res, cache') /\
    cache_ok cache' /\ res_valid exclude idx sub res /\ res_covers exclude (vps sub) res.
Proof.
  induction fuel as [|fuel IH]; intros d sub idx exclude cache Hf Hd Ht HS Hc; [lia|].
  cbn [nearest_in_subtree]. destruct sub as [|node tree].
  { exists None, cache. split; auto. split; auto. split; [intros i d0; discriminate|]. intros y []. }
  assert (Hn0 : S0 (vantage_pt node)) by (apply HS; left; auto).
  destruct (cache_entry cache (vantage_pt node) (dist pt (vantage_pt node))) as [d0 cache0] eqn:Ece.
  apply cache_entry_ok in Ece; auto. destruct Ece as [-> Hc0]. cbv beta iota zeta.
  set (own := if _ || _ then None else Some (idx, dist pt (vantage_pt node))).
  assert (Hown : forall sub', res_valid exclude idx (node :: sub') own).
  { intros sub' i d1 H. unfold own in H.
    destruct (Nat.eqb pt (vantage_pt node) || existsb (Nat.eqb (vantage_pt node)) exclude) eqn:E; [discriminate|].
    injection H as <- <-. split; auto. exists node. rewrite Nat.sub_diag. split; auto. split; auto.
    apply orb_false_iff in E. destruct E as [E1 E2]. apply Nat.eqb_neq in E1. split; [auto|].
    intros Hin. assert (existsb (Nat.eqb (vantage_pt node)) exclude = true); [|congruence].
    apply existsb_exists. eexists; split; eauto. apply Nat.eqb_refl. }
  assert (Hownc : res_covers exclude [vantage_pt node] own).
  { intros y [<-|[]] [Hy1 Hy2] Hm. unfold own.
    destruct (Nat.eqb_spec pt (vantage_pt node)); [congruence|]. cbn.
    destruct (existsb (Nat.eqb (vantage_pt node)) exclude) eqn:E.
    - apply existsb_exists in E. destruct E as (x & Hx & Ex). apply Nat.eqb_eq in Ex. congruence.
    - do 2 eexists; split; eauto. pose proof (HD Hpt Hn0). destruct Hord as [[Htot _] _].
      destruct (Htot _ _ H H); auto. }
  inversion Ht as [d' l Hflat Hnone|d' v r inside outside Hd0 Hne Hbal Hin Hout Hr Hti Hto]; subst.
  { (* flat: a single node without children *)
    assert (tree = []) as ->.
    { destruct Hflat as [H|H]; [destruct tree; cbn in H; auto; lia|]. subst.
      change (2 ^ N.succ 0)%N with 2%N in Hd.
      destruct tree; auto. cbn [length] in Hd. lia. }
    inversion Hnone as [|? ? Hnc _]; subst. rewrite Hnc.
    exists own, cache0. auto. }
  cbn [children ch_offset ch_radius vantage_pt] in *.
  replace (length (inside ++ outside) <? length inside) with false
    by (symmetry; apply Nat.ltb_ge; rewrite app_length; lia).
  replace (firstn (length inside) (inside ++ outside)) with inside
    by (rewrite firstn_app, Nat.sub_diag, firstn_O, app_nil_r, firstn_all; auto).
  replace (skipn (length inside) (inside ++ outside)) with outside
    by (rewrite skipn_app, Nat.sub_diag, skipn_all; auto).
  set (dq := dist pt v) in *.
  destruct Hr as (nz & Hnz & Hrz).
  assert (HSi : forall n, In n inside -> S0 (vantage_pt n))
    by (intros n Hn; apply HS; right; apply in_or_app; auto).
  assert (HSo : forall n, In n outside -> S0 (vantage_pt n))
    by (intros n Hn; apply HS; right; apply in_or_app; auto).
  assert (Hlen : length (inside ++ outside) = length inside + length outside) by apply app_length.
  cbn [length] in Hf, Hd. rewrite Hlen in Hf, Hd.
  assert (Hlo : 0 < length outside) by (destruct outside; cbn; [congruence|lia]).
  assert (Hhalf : length outside <= length inside + 1 /\ length inside <= length outside).
  { pose proof (Nat.div_mod (length inside + length outside) 2) as Hdm.
    pose proof (Nat.mod_upper_bound (length inside + length outside) 2). lia. }
  assert (Hdep : (N.of_nat (length inside) < 2 ^ N.succ (N.pred d) /\ N.of_nat (length outside) < 2 ^ N.succ (N.pred d))%N).
  { rewrite (N.succ_pred d Hd0). rewrite N.pow_succ_r' in Hd. lia. }
  destruct Hdep as [Hdi Hdo].
  assert (Dr : D r) by (rewrite Hrz; apply HD; auto).
  assert (Dq : D dq) by (apply HD; auto).
  set (sub := mkNode v (Some (mkChildren r (length inside))) :: inside ++ outside) in *.
  (* both orders are the same up to the naming of the two parts *)
  assert (Hmain : forall pref other offp offo,
    (pref = inside /\ other = outside /\ offp = 1 /\ offo = length inside + 1) \/
    (pref = outside /\ other = inside /\ offp = length inside + 1 /\ offo = 1) ->
    (forall y, In y (vps other) -> nleb (nabs (nsub dq r)) (dist pt y) = true /\
        nleb (nabs (nsub r dq)) (dist pt y) = true) ->
    exists res cache', match nearest_in_subtree fuel dist max pref pt (idx + offp) exclude cache0 with
      | None => None
      | Some (nearest_pref, cache) =>
          let nearest := nearer own nearest_pref in
          if negb (nleb (nabs (nsub dq r)) max) then Some (nearest, cache)
          else if match nearest with Some (_, dn) => nltb dn (nabs (nsub r dq)) | None => false end
          then Some (nearest, cache)
          else match nearest_in_subtree fuel dist max other pt (idx + offo) exclude cache with
               | None => None
               | Some (nearest_other, cache) => Some (nearer nearest nearest_other, cache)
               end
      end = Some (res, cache') /\ cache_ok cache' /\ res_valid exclude idx sub res /\
      res_covers exclude (vps sub) res).
  { intros pref other offp offo Hcase Hpr.
    assert (Hp : length pref < fuel /\ (N.of_nat (length pref) < 2 ^ N.succ (N.pred d))%N /\
      vp_tree dist (N.pred d) pref /\ (forall n, In n pref -> S0 (vantage_pt n))).
    { destruct Hcase as [(-> & -> & -> & ->)|(-> & -> & -> & ->)]; repeat split; auto; lia. }
    assert (Ho : length other < fuel /\ (N.of_nat (length other) < 2 ^ N.succ (N.pred d))%N /\
      vp_tree dist (N.pred d) other /\ (forall n, In n other -> S0 (vantage_pt n))).
    { destruct Hcase as [(-> & -> & -> & ->)|(-> & -> & -> & ->)]; repeat split; auto; lia. }
    destruct Hp as (Hp1 & Hp2 & Hp3 & Hp4), Ho as (Ho1 & Ho2 & Ho3 & Ho4).
    destruct (IH (N.pred d) pref (idx + offp) exclude cache0) as (rp & cp & -> & Hcp & Vp & Cp); auto.
    assert (Vp' : res_valid exclude idx sub rp).
    { destruct Hcase as [(-> & -> & -> & ->)|(-> & -> & -> & ->)].
      - apply (@res_valid_shift exclude idx 1 sub inside [mkNode v (Some (mkChildren r (length inside)))] outside); auto.
      - apply (@res_valid_shift exclude idx (length inside + 1) sub outside
          (mkNode v (Some (mkChildren r (length inside))) :: inside) []); auto.
        + rewrite app_nil_r. reflexivity.
        + cbn. lia. }
    cbv zeta. set (nearest := nearer own rp).
    assert (HSsub : forall n, In n sub -> S0 (vantage_pt n)) by exact HS.
    assert (Vn : res_valid exclude idx sub nearest) by (apply nearer_valid; auto; apply Hown).
    assert (Cn : res_covers exclude ([v] ++ vps pref) nearest).
    { apply (@nearer_covers exclude idx sub); auto; [|apply Hown].
      intros y [[<-|[]]|Hy]; auto. apply in_map_iff in Hy. destruct Hy as (n & <- & Hn). auto. }
    assert (Hall : forall y, In y (vps sub) -> In y ([v] ++ vps pref) \/ In y (vps other)).
    { intros y Hy. unfold sub in Hy. cbn [map vantage_pt] in Hy. rewrite map_app in Hy.
      destruct Hcase as [(-> & -> & -> & ->)|(-> & -> & -> & ->)];
      (destruct Hy as [<-|Hy]; [left; left; auto|]; apply in_app_or in Hy;
       destruct Hy; [|]); cbn; auto. }
    assert (HSo' : forall y, In y (vps other) -> S0 y).
    { intros y Hy. apply in_map_iff in Hy. destruct Hy as (n & <- & Hn). auto. }
    destruct (@HDsub pt v (vantage_pt nz)) as [Dd1 Dd2]; auto.
    fold dq in Dd1, Dd2. rewrite <- Hrz in Dd1, Dd2.
    destruct (nleb (nabs (nsub dq r)) max) eqn:Em; cbn [negb].
    2:{ exists nearest, cp. split; auto. split; auto. split; auto.
        intros y Hy Hal Hym. destruct (Hall y Hy) as [Hy'|Hy']; [apply Cn; auto|].
        exfalso. destruct (Hpr y Hy') as [H1 _]. destruct Hord as [[_ Htr] _].
        rewrite (Htr _ (dist pt y) max) in Em; auto; discriminate. }
    destruct (match nearest with Some (_, dn) => nltb dn (nabs (nsub r dq)) | None => false end) eqn:E2.
    { exists nearest, cp. split; auto. split; auto. split; auto.
      intros y Hy Hal Hym. destruct (Hall y Hy) as [Hy'|Hy']; [apply Cn; auto|].
      destruct nearest as [[i dn]|] eqn:En; [|discriminate].
      exists i, dn. split; auto. destruct (Hpr y Hy') as [_ H1].
      pose proof (res_valid_D HSsub Vn eq_refl) as Ddn.
      destruct Hord as [[_ Htr] _]. apply (Htr _ (nabs (nsub r dq)) _); auto.
      apply lt_le; auto. }
    destruct (IH (N.pred d) other (idx + offo) exclude cp) as (ro & co & -> & Hco & Vo & Co); auto.
    assert (Vo' : res_valid exclude idx sub ro).
    { destruct Hcase as [(-> & -> & -> & ->)|(-> & -> & -> & ->)].
      - apply (@res_valid_shift exclude idx (length inside + 1) sub outside
          (mkNode v (Some (mkChildren r (length inside))) :: inside) []); auto.
        + rewrite app_nil_r. reflexivity.
        + cbn. lia.
      - apply (@res_valid_shift exclude idx 1 sub inside [mkNode v (Some (mkChildren r (length inside)))] outside); auto. }
    exists (nearer nearest ro), co. split; auto. split; auto. split; [apply nearer_valid; auto|].
    intros y Hy. apply (@nearer_covers exclude idx sub ([v] ++ vps pref) (vps other)); auto.
    - intros z [[<-|Hz]|Hz]; auto. apply in_map_iff in Hz. destruct Hz as (n & <- & Hn). auto.
    - apply in_or_app. auto. }
  destruct (nltb r dq) eqn:Elt.
  - apply (Hmain outside inside (length inside + 1) 1); auto.
    intros y Hy. apply in_map_iff in Hy. destruct Hy as (n & <- & Hn).
    rewrite Forall_forall in Hin. specialize (Hin n Hn).
    destruct (@Hprune pt v (vantage_pt n) (vantage_pt nz)) as [H1 _]; auto.
    cbv zeta in H1. fold dq in H1. rewrite <- Hrz in H1. auto.
  - apply (Hmain inside outside 1 (length inside + 1)); auto.
    intros y Hy. apply in_map_iff in Hy. destruct Hy as (n & <- & Hn).
    rewrite Forall_forall in Hout. specialize (Hout n Hn).
    destruct (@Hprune pt v (vantage_pt n) (vantage_pt nz)) as [_ H1]; auto.
    cbv zeta in H1. fold dq in H1. rewrite <- Hrz in H1. auto.
Qed.

Lemma impl_spec depth nodes exclude cache :
  (N.of_nat (length nodes) < 2 ^ N.succ depth)%N -> vp_tree dist depth nodes ->
  (forall n, In n nodes -> S0 (vantage_pt n)) -> cache_ok cache ->
  exists res cache', nearest_in_impl nodes dist max pt exclude cache = Some (res, cache') /\
    cache_ok cache' /\
    match res with
    | None => forall y, In y (vps nodes) -> allowed exclude y -> nleb (dist pt y) max = false
    | Some (x, d) => In x (vps nodes) /\ allowed exclude x /\ d = dist pt x /\ nleb d max = true /\
        forall y, In y (vps nodes) -> allowed exclude y -> nleb (dist pt y) max = true ->
          nleb d (dist pt y) = true
    end.
Proof.
  intros Hd Ht HS Hc. unfold nearest_in_impl.
  destruct (@search_spec (S (length nodes)) depth nodes 0 exclude cache) as (res & c' & -> & Hc' & Hv & Hcov); auto.
  destruct res as [[i d]|].
  - destruct (Hv i d eq_refl) as (_ & n & Hn & Ha & Hdd). rewrite Nat.sub_0_r in Hn.
    destruct (nleb d max) eqn:Em.
    + rewrite Hn. eexists _, c'. split; eauto. split; auto. cbn. repeat split; auto.
      * apply in_map. eapply nth_error_In; eauto.
      * apply Ha.
      * apply Ha.
      * intros y Hy Hal Hm. destruct (Hcov y Hy Hal Hm) as (i' & d' & E & Hle). congruence.
    + exists None, c'. split; auto. split; auto. intros y Hy Hal.
      destruct (nleb (dist pt y) max) eqn:Ey; auto.
      destruct (Hcov y Hy Hal Ey) as (i' & d' & E & Hle). injection E as <- <-.
      destruct Hord as [[_ Htr] _]. rewrite (Htr d (dist pt y) max) in Em; auto.
      * rewrite Hdd. apply HD; auto. apply HS. eapply nth_error_In; eauto.
      * apply HD; auto. apply in_map_iff in Hy. destruct Hy as (m & <- & Hm). auto.
  - exists None, c'. split; auto. split; auto. intros y Hy Hal.
    destruct (nleb (dist pt y) max) eqn:Ey; auto.
    destruct (Hcov y Hy Hal Ey) as (i' & d' & E & _). discriminate.
Qed.

Lemma nn_run_spec depth nodes : (N.of_nat (length nodes) < 2 ^ N.succ depth)%N -> vp_tree dist depth nodes ->
  (forall n, In n nodes -> S0 (vantage_pt n)) ->
  forall fuel exclude cache, cache_ok cache -> NoDup exclude -> incl exclude (vps nodes) ->
  length nodes < fuel + length exclude ->
  exists l, nn_run fuel nodes dist max pt exclude cache = Some l /\
    NoDup (map fst l) /\
    (forall i, In i (map fst l) <-> In i (vps nodes) /\ allowed exclude i /\ nleb (dist pt i) max = true) /\
    Forall (fun x => snd x = dist pt (fst x)) l /\
    StronglySorted (fun x y => nleb (snd x) (snd y) = true) l.
Proof.
  intros Hd Ht HS. induction fuel as [|fuel IH]; intros exclude cache Hc Hnd Hincl Hf.
  { exfalso. pose proof (NoDup_incl_length Hnd Hincl) as H. rewrite map_length in H. lia. }
  cbn [nn_run].
  destruct (impl_spec exclude Hd Ht HS Hc) as (res & c' & -> & Hc' & Hres).
  destruct res as [[x d]|].
  - destruct Hres as (Hx & Hal & -> & Hm & Hmin).
    destruct (IH (x :: exclude) c') as (l & -> & L1 & L2 & L3 & L4); auto.
    + constructor; auto. apply Hal.
    + intros y [<-|Hy]; auto.
    + cbn. lia.
    + eexists. split; [reflexivity|]. cbn [map fst]. split; [|split; [|split]].
      * constructor; auto. intros Hin. apply L2 in Hin. destruct Hin as (_ & [_ H] & _). apply H. left; auto.
      * intros i. cbn [In]. rewrite L2. split.
        -- intros [<-|(H1 & [H2 H3] & H4)]; auto. split; auto. split; auto. split; auto.
           intros H. apply H3. right; auto.
        -- intros (H1 & [H2 H3] & H4). destruct (Nat.eq_dec x i) as [->|Hne]; auto. right.
           split; auto. split; auto. split; auto. intros [H|H]; congruence.
      * constructor; auto.
      * constructor; auto. apply Forall_forall. intros [i di] Hi. cbn.
        rewrite Forall_forall in L3. pose proof (L3 _ Hi) as Hdi. cbn in Hdi. rewrite Hdi.
        apply (in_map fst) in Hi. cbn in Hi. apply L2 in Hi. destruct Hi as (H1 & [H2 H3] & H4).
        apply Hmin; auto. split; auto. intros H. apply H3. right; auto.
  - eexists. split; [reflexivity|]. cbn. split; [constructor|]. split; [|split; constructor].
    intros i. split; [tauto|]. intros (H1 & H2 & H3). rewrite Hres in H3 by auto. discriminate.
Qed.

End Query.

Lemma nearest_in_spec depth nodes pt n :
  (N.of_nat n < 2 ^ N.succ depth)%N -> vp_tree dist depth nodes ->
  Permutation (seq 0 n) (vps nodes) -> (forall i, i < n -> S0 i) -> pt < n ->
  exists l, nearest_in nodes dist max pt = Some l /\ nearest_list n pt (dist pt) max l.
Proof.
  intros Hd Ht Hp HS Hpt. unfold nearest_in.
  assert (Hl : length nodes = n).
  { apply Permutation_length in Hp. rewrite seq_length, map_length in Hp. auto. }
  assert (Hin : forall i, In i (vps nodes) <-> i < n).
  { intros i. split.
    - intros Hi. apply (Permutation_in _ (Permutation_sym Hp)) in Hi. apply in_seq in Hi. lia.
    - intros Hi. apply (Permutation_in _ Hp). apply in_seq. lia. }
  destruct (@nn_run_spec pt (HS pt Hpt) depth nodes) with (fuel := S (length nodes)) (exclude := @nil nat)
    (cache := @nil (nat * F)) as (l & -> & L1 & L2 & L3 & L4); auto.
  - rewrite Hl; auto.
  - intros m Hm. apply HS, Hin. apply in_map; auto.
  - intros k d; discriminate.
  - constructor.
  - intros y [].
  - cbn. lia.
  - exists l. split; auto. split; auto. split; auto. intros i. rewrite L2, Hin. unfold allowed. cbn. tauto.
Qed.

Lemma tree_nearest_spec n pt :
  (N.of_nat n <= usize_max)%N -> (forall i, i < n -> S0 i) -> pt < n ->
  exists l, tree_nearest sort choose n dist max pt = Some l /\ nearest_list n pt (dist pt) max l.
Proof.
  intros Hn HS Hpt. unfold tree_nearest. rewrite par_tree_eq by lia.
  destruct (@tree_of_spec usize_max (seq 0 n)) as (nodes & -> & Hp & Ht).
  - intros p q Hpin Hq. apply in_seq in Hpin, Hq. apply HD; apply HS; lia.
  - eapply nearest_in_spec; eauto. apply pow_big; auto.
Qed.

Lemma tree_depth_spec n depth pt :
  (N.of_nat n < 2 ^ N.succ depth)%N -> (forall i, i < n -> S0 i) -> pt < n ->
  exists nodes l, tree_of sort choose dist depth (seq 0 n) = Some nodes /\
    nearest_in nodes dist max pt = Some l /\ nearest_list n pt (dist pt) max l.
Proof.
  intros Hn HS Hpt.
  destruct (@tree_of_spec depth (seq 0 n)) as (nodes & -> & Hp & Ht).
  - intros p q Hpin Hq. apply in_seq in Hpin, Hq. apply HD; apply HS; lia.
  - destruct (@nearest_in_spec depth nodes pt n) as (l & El & Hl); eauto.
Qed.

End Tree.
Arguments cache_ok {F}. Arguments res_valid {F}. Arguments res_covers {F}.
