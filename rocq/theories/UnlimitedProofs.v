(** The tree search with a limit that no distance and no difference of distances exceeds: it finds all
    points, whether or not the distance is a metric. *)
From Coq Require Import NArith Reals Lra SpecFloat.
From Verif Require Import Base BaseProofs Num ModelEvent ModelCell ModelNaive ModelSeeds ModelVPTree
  ModelResampler SpecSearch SpecTree RunProofs RunProofs2 SeedsProofs NaiveProofs VPTreeProofs VPTreeProofs2.
Set Implicit Arguments.

Section Found.
Context (F : NumOps) (dist : nat -> nat -> F) (max : F) (pt : nat) (S0 : nat -> Prop).
Notation vps := (map (@vantage_pt F)).
Hypothesis Hwide : forall v z, S0 v -> S0 z -> nleb (nabs (nsub (dist pt v) (dist v z))) max = true.
Hypothesis Hmax : forall v, S0 v -> nleb (dist pt v) max = true.

Lemma nearer_none (a b : option (nat * F)) : nearer a b = None -> a = None /\ b = None.
Proof. destruct a as [[i d]|], b as [[j d']|]; cbn; try discriminate; auto. destruct (nleb d d'); discriminate. Qed.

Lemma search_found fuel : forall d sub idx exclude cache cache',
  length sub < fuel -> (N.of_nat (length sub) < 2 ^ N.succ d)%N -> vp_tree dist d sub -> (forall n, In n sub -> S0 (vantage_pt n)) -> cache_ok dist pt cache ->
  nearest_in_subtree fuel dist max sub pt idx exclude cache = Some (None, cache') ->
  forall y, In y (vps sub) -> ~ allowed pt exclude y.
Proof.
  induction fuel as [|fuel IH]; intros d sub idx exclude cache cache' Hf Hd Ht HS Hc H; [lia|].
  cbn [nearest_in_subtree] in H. destruct sub as [|node tree]; [intros y []|].
  assert (Hn0 : S0 (vantage_pt node)) by (apply HS; left; auto).
  destruct (cache_entry cache (vantage_pt node) (dist pt (vantage_pt node))) as [d0 cache0] eqn:Ece.
  apply cache_entry_ok in Ece; auto. destruct Ece as [-> Hc0]. cbv beta iota zeta in H.
  set (own := if _ || _ then None else Some (idx, dist pt (vantage_pt node))) in H.
  assert (Hown : own = None -> ~ allowed pt exclude (vantage_pt node)).
  { unfold own. intros E [A B]. destruct (Nat.eqb_spec pt (vantage_pt node)) as [X|X]; [congruence|]. cbn in E.
    destruct (existsb (Nat.eqb (vantage_pt node)) exclude) eqn:E1; [|discriminate].
    apply existsb_exists in E1. destruct E1 as (x & Hx & Ex). apply Nat.eqb_eq in Ex. congruence. }
  inversion Ht as [d' l Hflat Hnone|d' v r inside outside Hd0 Hne Hbal Hin Hout Hr Hti Hto]; subst.
  { assert (tree = []) as ->.
    { destruct Hflat as [H0|H0]; [destruct tree; cbn in H0; auto; lia|]. subst.
      change (2 ^ N.succ 0)%N with 2%N in Hd. destruct tree; auto. cbn [length] in Hd. lia. }
    inversion Hnone as [|? ? Hnc _]; subst. rewrite Hnc in H. injection H as Ho _. intros y [<-|[]]. auto. }
  cbn [children ch_offset ch_radius vantage_pt] in *.
  replace (length (inside ++ outside) <? length inside) with false in H
    by (symmetry; apply Nat.ltb_ge; rewrite app_length; lia).
  replace (firstn (length inside) (inside ++ outside)) with inside in H
    by (rewrite firstn_app, Nat.sub_diag, firstn_O, app_nil_r, firstn_all; auto).
  replace (skipn (length inside) (inside ++ outside)) with outside in H
    by (rewrite skipn_app, Nat.sub_diag, skipn_all; auto).
  destruct Hr as (nz & Hnz & Hrz).
  assert (HSi : forall n, In n inside -> S0 (vantage_pt n)) by (intros n Hn; apply HS; right; apply in_or_app; auto).
  assert (HSo : forall n, In n outside -> S0 (vantage_pt n)) by (intros n Hn; apply HS; right; apply in_or_app; auto).
  cbn [length] in Hf, Hd. rewrite app_length in Hf, Hd.
  assert (Hlo : 0 < length outside) by (destruct outside; cbn; [congruence|lia]).
  assert (Hhalf : length outside <= length inside + 1 /\ length inside <= length outside).
  { pose proof (Nat.div_mod (length inside + length outside) 2) as Hdm.
    pose proof (Nat.mod_upper_bound (length inside + length outside) 2). lia. }
  assert (Hdep : (N.of_nat (length inside) < 2 ^ N.succ (N.pred d) /\ N.of_nat (length outside) < 2 ^ N.succ (N.pred d))%N).
  { rewrite (N.succ_pred d Hd0). rewrite N.pow_succ_r' in Hd. lia. }
  destruct Hdep as [Hdi Hdo].
  assert (Hw : nleb (nabs (nsub (dist pt v) r)) max = true) by (rewrite Hrz; apply Hwide; auto).
  rewrite Hw in H. cbn [negb] in H.
  assert (Hgo : forall pref other offp offo,
    length pref < fuel -> (N.of_nat (length pref) < 2 ^ N.succ (N.pred d))%N -> vp_tree dist (N.pred d) pref -> (forall n, In n pref -> S0 (vantage_pt n)) ->
    length other < fuel -> (N.of_nat (length other) < 2 ^ N.succ (N.pred d))%N -> vp_tree dist (N.pred d) other -> (forall n, In n other -> S0 (vantage_pt n)) ->
    match nearest_in_subtree fuel dist max pref pt (idx + offp) exclude cache0 with
      | None => None
      | Some (nearest_pref, cache) =>
          if match nearer own nearest_pref with Some (_, dn) => nltb dn (nabs (nsub r (dist pt v))) | None => false end
          then Some (nearer own nearest_pref, cache)
          else match nearest_in_subtree fuel dist max other pt (idx + offo) exclude cache with
               | None => None
               | Some (nearest_other, cache) => Some (nearer (nearer own nearest_pref) nearest_other, cache)
               end
      end = Some (None, cache') ->
    ~ allowed pt exclude v /\ (forall y, In y (vps pref) -> ~ allowed pt exclude y) /\ (forall y, In y (vps other) -> ~ allowed pt exclude y)).
  { intros pref other offp offo P1 P2 P3 P4 O1 O2 O3 O4 G.
    destruct (nearest_in_subtree fuel dist max pref pt (idx + offp) exclude cache0) as [[rp cp]|] eqn:Ep; [|discriminate].
    destruct (@search_sound F dist max pt fuel (N.pred d) pref (idx + offp) exclude cache0 P1 P3 Hc0) as (rp' & cp' & Ep' & Hcp & _). rewrite Ep in Ep'. injection Ep' as <- <-.
    destruct (nearer own rp) as [[i dn]|] eqn:En.
    - destruct (nltb dn (nabs (nsub r (dist pt v)))); [discriminate|].
      destruct (nearest_in_subtree fuel dist max other pt (idx + offo) exclude cp) as [[ro co]|]; [|discriminate].
      injection G as G _. destruct ro as [[j d2]|]; [destruct (nleb dn d2)|]; discriminate.
    - destruct (nearest_in_subtree fuel dist max other pt (idx + offo) exclude cp) as [[ro co]|] eqn:Eo; [|discriminate].
      injection G as G _. assert (ro = None) as -> by (destruct ro as [[? ?]|]; [discriminate|reflexivity]). apply nearer_none in En. destruct En as [En ->].
      split; [exact (Hown En)|]. split; [exact (IH (N.pred d) pref (idx + offp) exclude cache0 cp P1 P2 P3 P4 Hc0 Ep)|exact (IH (N.pred d) other (idx + offo) exclude cp co O1 O2 O3 O4 Hcp Eo)]. }
  assert (Hres : ~ allowed pt exclude v /\ (forall y, In y (vps inside) -> ~ allowed pt exclude y) /\ (forall y, In y (vps outside) -> ~ allowed pt exclude y)).
  { destruct (nltb r (dist pt v)).
    - destruct (Hgo outside inside (length inside + 1) 1) as (A & B & C); auto; lia.
    - apply (Hgo inside outside 1 (length inside + 1)); auto; lia. }
  destruct Hres as (A & B & C). intros y [<-|Hy]; [exact A|]. rewrite map_app in Hy. apply in_app_or in Hy. destruct Hy; auto.
Qed.

Lemma nn_run_found depth nodes : (N.of_nat (length nodes) < 2 ^ N.succ depth)%N -> vp_tree dist depth nodes -> (forall n, In n nodes -> S0 (vantage_pt n)) ->
  forall fuel exclude cache l, cache_ok dist pt cache -> nn_run fuel nodes dist max pt exclude cache = Some l ->
  forall y, In y (vps nodes) -> allowed pt exclude y -> In y (map fst l).
Proof.
  intros Hd Ht HS. induction fuel as [|fuel IH]; intros exclude cache l Hc H y Hy Ha; [discriminate|].
  cbn [nn_run] in H. unfold nearest_in_impl in H.
  destruct (@search_sound F dist max pt (S (length nodes)) depth nodes 0 exclude cache) as (res & c' & E & Hc' & Hv); auto.
  rewrite E in H. destruct res as [[i d]|].
  2:{ exfalso. eapply (@search_found (S (length nodes)) depth nodes 0 exclude cache c'); eauto. }
  destruct (Hv i d eq_refl) as (_ & n & Hn & _ & Hdd). rewrite Nat.sub_0_r in Hn.
  rewrite Hdd, Hmax, Hn in H by (apply HS; eapply nth_error_In; exact Hn).
  destruct (nn_run fuel nodes dist max pt (vantage_pt n :: exclude) c') as [l'|] eqn:El; [|discriminate]. injection H as <-.
  cbn [map fst In]. destruct (Nat.eq_dec (vantage_pt n) y) as [X|X]; [left; exact X|]. right.
  eapply IH; eauto. destruct Ha as [A B]. split; [exact A|]. intros [Z|Z]; auto.
Qed.
End Found.

(** a limit that neither distances nor computed differences of distances exceed *)
Lemma tree_unlimited (F : NumOps) (D : F -> Prop) sort choose n (dist : nat -> nat -> F) max :
  order_on F D -> sort_ok sort -> choose_ok choose -> (N.of_nat n <= usize_max)%N ->
  (forall i j, i < n -> j < n -> D (dist i j)) ->
  (forall i j, i < n -> j < n -> nleb (dist i j) max = true) ->
  (forall i j k, i < n -> j < n -> k < n -> nleb (nabs (nsub (dist i j) (dist j k))) max = true) ->
  complete_search n (tree_nearest sort choose n dist max).
Proof.
  intros Ho Hs Hc Hn HD Hm Hw q Hq.
  destruct (@tree_sound F D sort choose n dist max q Ho Hs Hc HD Hq) as (l & E & Hnd & Hl).
  exists l. split; [exact E|]. split.
  { split; [exact Hnd|]. intros i Hi. apply in_map_iff in Hi. destruct Hi as ((i' & d) & <- & Hi). destruct (Hl _ _ Hi) as (A & B & _). auto. }
  intros i Hi Hne. unfold tree_nearest in E. rewrite par_tree_eq in E by lia.
  destruct (@tree_of_spec F D Ho sort Hs dist choose Hc usize_max (seq 0 n)) as (nodes & En & Hp & Ht).
  { intros p q' Hpin Hq'. apply in_seq in Hpin, Hq'. apply HD; lia. }
  rewrite En in E. unfold nearest_in in E.
  assert (Hin : forall j, In j (map vantage_pt nodes) <-> j < n).
  { intros j. split.
    - intros Hj. apply (Permutation_in _ (Permutation_sym Hp)) in Hj. apply in_seq in Hj. lia.
    - intros Hj. apply (Permutation_in _ Hp). apply in_seq. lia. }
  assert (Hlen : length nodes = n) by (apply Permutation_length in Hp; rewrite seq_length, map_length in Hp; auto).
  eapply (@nn_run_found F dist max q (fun i => i < n)); [| |  |exact Ht| | |exact E| |]; auto.
  - rewrite Hlen. apply pow_big. exact Hn.
  - intros m H. apply Hin. apply in_map. exact H.
  - intros k d; discriminate.
  - apply Hin. exact Hi.
  - split; [exact Hne|intros []].
Qed.

(** exact arithmetic: nonnegative distances up to the limit *)
Lemma tree_unlimited_R sort choose n (dist : nat -> nat -> R) max : sort_ok sort -> choose_ok choose -> (N.of_nat n <= usize_max)%N ->
  (forall i j, i < n -> j < n -> (0 <= dist i j <= max)%R) -> complete_search (N := RN) n (tree_nearest (F := RN) sort choose n dist max).
Proof.
  intros Hs Hc Hn Hd. apply (@tree_unlimited RN (fun _ => True)); auto using RN_order.
  - intros i j Hi Hj. apply Rleb_true. apply Hd; auto.
  - intros i j k Hi Hj Hk. apply Rleb_true. cbn. apply Rabs_le. pose proof (Hd i j Hi Hj). pose proof (Hd j k Hj Hk). lra.
Qed.
