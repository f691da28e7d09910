(** The tree search when the distances satisfy the triangle inequality only approximately. *)
From Coq Require Import NArith ZArith Reals Lra SpecFloat.
From Flocq Require Import Core.Core Plus_error Relative.
From Verif Require Import Base BaseProofs Num ModelNaive ModelVPTree SpecSearch SpecTree SpecTreeNear RunProofs
  RunProofs2 VPTreeProofs VPTreeProofs2 UnlimitedProofs B64Proofs VPTreeB64.
Set Implicit Arguments.

Section Near.
Context (F : NumOps) (D : F -> Prop).
Hypothesis Hord : order_on F D.
Context (dist : nat -> nat -> F) (S0 : nat -> Prop).
Hypothesis HD : forall p q, S0 p -> S0 q -> D (dist p q).
Hypothesis HDsub : forall q v z, S0 q -> S0 v -> S0 z ->
  D (nabs (nsub (dist q v) (dist v z))) /\ D (nabs (nsub (dist v z) (dist q v))).
Context (max : F).
(** [near a b]: [a] is at most a little larger than [b] *)
Context (near : F -> F -> Prop).
Hypothesis near_refl : forall a, D a -> near a a.
Hypothesis near_trans : forall a b c, D a -> D b -> D c -> nleb a b = true -> near b c -> near a c.
Hypothesis Hprune : forall q v y z, S0 q -> S0 v -> S0 y -> S0 z ->
  let d := dist q v in let r := dist v z in
  (nltb r d = true -> nleb (dist v y) r = true ->
     near (nabs (nsub d r)) (dist q y) /\ near (nabs (nsub r d)) (dist q y)) /\
  (nltb r d = false -> nleb r (dist v y) = true ->
     near (nabs (nsub d r)) (dist q y) /\ near (nabs (nsub r d)) (dist q y)).

(** everything near [b] is within the limit *)
Definition surely (b : F) := forall a, D a -> near a b -> nleb a max = true.

Notation vps := (map (@vantage_pt F)).
Context (pt : nat).
Hypothesis Hpt : S0 pt.
Notation allowed := (allowed pt).

Definition near_covers (exclude : list nat) (ys : list nat) (res : option (nat * F)) :=
  forall y, In y ys -> allowed exclude y -> surely (dist pt y) ->
    exists i d, res = Some (i, d) /\ near d (dist pt y).

Lemma nearer_near exclude idx sub ys zs a b :
  (forall n, In n sub -> S0 (vantage_pt n)) ->
  (forall y, In y ys \/ In y zs -> S0 y) ->
  res_valid dist pt exclude idx sub a -> res_valid dist pt exclude idx sub b ->
  near_covers exclude ys a -> near_covers exclude zs b -> near_covers exclude (ys ++ zs) (nearer a b).
Proof.
  intros HS HSy Va Vb Ca Cb y Hy Hal Hmax.
  pose proof (res_valid_D D S0 HD Hpt HS Va) as DA. pose proof (res_valid_D D S0 HD Hpt HS Vb) as DB.
  destruct Hord as [[Htot _] _].
  apply in_app_or in Hy. assert (Hy0 : S0 y) by (apply HSy; auto).
  pose proof (HD Hpt Hy0) as Dy.
  destruct Hy as [Hy|Hy].
  - destruct (Ca y Hy Hal Hmax) as (i & d & -> & Hle). destruct b as [[i2 d2]|]; cbn.
    + destruct (nleb d d2) eqn:E; eauto. exists i2, d2. split; auto.
      apply (@near_trans _ d _); eauto. destruct (Htot d d2); eauto. congruence.
    + eauto.
  - destruct (Cb y Hy Hal Hmax) as (i & d & -> & Hle). destruct a as [[i2 d2]|]; cbn.
    + destruct (nleb d2 d) eqn:E; eauto. exists i2, d2. split; auto.
      apply (@near_trans _ d _); eauto.
    + eauto.
Qed.

Lemma search_near fuel : forall d sub idx exclude cache,
  length sub < fuel -> (N.of_nat (length sub) < 2 ^ N.succ d)%N ->
  vp_tree dist d sub -> (forall n, In n sub -> S0 (vantage_pt n)) -> cache_ok dist pt cache ->
  exists res cache', nearest_in_subtree fuel dist max sub pt idx exclude cache = Some (res, cache') /\
    cache_ok dist pt cache' /\ res_valid dist pt exclude idx sub res /\ near_covers exclude (vps sub) res.
Proof.
  induction fuel as [|fuel IH]; intros d sub idx exclude cache Hf Hd Ht HS Hc; [lia|].
  cbn [nearest_in_subtree]. destruct sub as [|node tree].
  { exists None, cache. split; auto. split; auto. split; [intros i d0; discriminate|]. intros y []. }
  assert (Hn0 : S0 (vantage_pt node)) by (apply HS; left; auto).
  destruct (cache_entry cache (vantage_pt node) (dist pt (vantage_pt node))) as [d0 cache0] eqn:Ece.
  apply cache_entry_ok in Ece; auto. destruct Ece as [-> Hc0]. cbv beta iota zeta.
  set (own := if _ || _ then None else Some (idx, dist pt (vantage_pt node))).
  assert (Hown : forall sub', res_valid dist pt exclude idx (node :: sub') own).
  { intros sub' i d1 H. unfold own in H.
    destruct (Nat.eqb pt (vantage_pt node) || existsb (Nat.eqb (vantage_pt node)) exclude) eqn:E; [discriminate|].
    injection H as <- <-. split; auto. exists node. rewrite Nat.sub_diag. split; auto. split; auto.
    apply orb_false_iff in E. destruct E as [E1 E2]. apply Nat.eqb_neq in E1. split; [auto|].
    intros Hin. assert (existsb (Nat.eqb (vantage_pt node)) exclude = true); [|congruence].
    apply existsb_exists. eexists; split; eauto. apply Nat.eqb_refl. }
  assert (Hownc : near_covers exclude [vantage_pt node] own).
  { intros y [<-|[]] [Hy1 Hy2] Hm. unfold own.
    destruct (Nat.eqb_spec pt (vantage_pt node)); [congruence|]. cbn.
    destruct (existsb (Nat.eqb (vantage_pt node)) exclude) eqn:E.
    - apply existsb_exists in E. destruct E as (x & Hx & Ex). apply Nat.eqb_eq in Ex. congruence.
    - do 2 eexists; split; [reflexivity|]. apply near_refl; auto. }
  inversion Ht as [d' l Hflat Hnone|d' v r inside outside Hd0 Hne Hbal Hin Hout Hr Hti Hto]; subst.
  { (* flat: a single node without children *)
    assert (tree = []) as ->.
    { destruct Hflat as [H|H]; [destruct tree; cbn in H; auto; lia|]. subst.
      change (2 ^ N.succ 0)%N with 2%N in Hd.
      destruct tree; auto. cbn [length] in Hd. lia. }
    inversion Hnone as [|? ? Hnc _]; subst. rewrite Hnc.
    exists own, cache0. auto. }
  cbn [children ch_offset ch_radius vantage_pt] in *.
  replace (length (inside ++ outside) <? length inside) with false
    by (symmetry; apply Nat.ltb_ge; rewrite app_length; lia).
  replace (firstn (length inside) (inside ++ outside)) with inside
    by (rewrite firstn_app, Nat.sub_diag, firstn_O, app_nil_r, firstn_all; auto).
  replace (skipn (length inside) (inside ++ outside)) with outside
    by (rewrite skipn_app, Nat.sub_diag, skipn_all; auto).
  set (dq := dist pt v) in *.
  destruct Hr as (nz & Hnz & Hrz).
  assert (HSi : forall n, In n inside -> S0 (vantage_pt n))
    by (intros n Hn; apply HS; right; apply in_or_app; auto).
  assert (HSo : forall n, In n outside -> S0 (vantage_pt n))
    by (intros n Hn; apply HS; right; apply in_or_app; auto).
  assert (Hlen : length (inside ++ outside) = length inside + length outside) by apply app_length.
  cbn [length] in Hf, Hd. rewrite Hlen in Hf, Hd.
  assert (Hlo : 0 < length outside) by (destruct outside; cbn; [congruence|lia]).
  assert (Hhalf : length outside <= length inside + 1 /\ length inside <= length outside).
  { pose proof (Nat.div_mod (length inside + length outside) 2) as Hdm.
    pose proof (Nat.mod_upper_bound (length inside + length outside) 2). lia. }
  assert (Hdep : (N.of_nat (length inside) < 2 ^ N.succ (N.pred d) /\ N.of_nat (length outside) < 2 ^ N.succ (N.pred d))%N).
  { rewrite (N.succ_pred d Hd0). rewrite N.pow_succ_r' in Hd. lia. }
  destruct Hdep as [Hdi Hdo].
  assert (Dr : D r) by (rewrite Hrz; apply HD; auto).
  assert (Dq : D dq) by (apply HD; auto).
  set (sub := mkNode v (Some (mkChildren r (length inside))) :: inside ++ outside) in *.
  (* both orders are the same up to the naming of the two parts *)
  assert (Hmain : forall pref other offp offo,
    (pref = inside /\ other = outside /\ offp = 1 /\ offo = length inside + 1) \/
    (pref = outside /\ other = inside /\ offp = length inside + 1 /\ offo = 1) ->
    (forall y, In y (vps other) -> near (nabs (nsub dq r)) (dist pt y) /\
        near (nabs (nsub r dq)) (dist pt y)) ->
    exists res cache', match nearest_in_subtree fuel dist max pref pt (idx + offp) exclude cache0 with
      | None => None
      | Some (nearest_pref, cache) =>
          let nearest := nearer own nearest_pref in
          if negb (nleb (nabs (nsub dq r)) max) then Some (nearest, cache)
          else if match nearest with Some (_, dn) => nltb dn (nabs (nsub r dq)) | None => false end
          then Some (nearest, cache)
          else match nearest_in_subtree fuel dist max other pt (idx + offo) exclude cache with
               | None => None
               | Some (nearest_other, cache) => Some (nearer nearest nearest_other, cache)
               end
      end = Some (res, cache') /\ cache_ok dist pt cache' /\ res_valid dist pt exclude idx sub res /\
      near_covers exclude (vps sub) res).
  { intros pref other offp offo Hcase Hpr.
    assert (Hp : length pref < fuel /\ (N.of_nat (length pref) < 2 ^ N.succ (N.pred d))%N /\
      vp_tree dist (N.pred d) pref /\ (forall n, In n pref -> S0 (vantage_pt n))).
    { destruct Hcase as [(-> & -> & -> & ->)|(-> & -> & -> & ->)]; repeat split; auto; lia. }
    assert (Ho : length other < fuel /\ (N.of_nat (length other) < 2 ^ N.succ (N.pred d))%N /\
      vp_tree dist (N.pred d) other /\ (forall n, In n other -> S0 (vantage_pt n))).
    { destruct Hcase as [(-> & -> & -> & ->)|(-> & -> & -> & ->)]; repeat split; auto; lia. }
    destruct Hp as (Hp1 & Hp2 & Hp3 & Hp4), Ho as (Ho1 & Ho2 & Ho3 & Ho4).
    destruct (IH (N.pred d) pref (idx + offp) exclude cache0) as (rp & cp & -> & Hcp & Vp & Cp); auto.
    assert (Vp' : res_valid dist pt exclude idx sub rp).
    { destruct Hcase as [(-> & -> & -> & ->)|(-> & -> & -> & ->)].
      - apply (@res_valid_shift F dist pt exclude idx 1 sub inside [mkNode v (Some (mkChildren r (length inside)))] outside); auto.
      - apply (@res_valid_shift F dist pt exclude idx (length inside + 1) sub outside
          (mkNode v (Some (mkChildren r (length inside))) :: inside) []); auto.
        + rewrite app_nil_r. reflexivity.
        + cbn. lia. }
    cbv zeta. set (nearest := nearer own rp).
    assert (HSsub : forall n, In n sub -> S0 (vantage_pt n)) by exact HS.
    assert (Vn : res_valid dist pt exclude idx sub nearest) by (apply nearer_valid; auto; apply Hown).
    assert (Cn : near_covers exclude ([v] ++ vps pref) nearest).
    { apply (@nearer_near exclude idx sub); auto; [|apply Hown].
      intros y [[<-|[]]|Hy]; auto. apply in_map_iff in Hy. destruct Hy as (n & <- & Hn). auto. }
    assert (Hall : forall y, In y (vps sub) -> In y ([v] ++ vps pref) \/ In y (vps other)).
    { intros y Hy. unfold sub in Hy. cbn [map vantage_pt] in Hy. rewrite map_app in Hy.
      destruct Hcase as [(-> & -> & -> & ->)|(-> & -> & -> & ->)];
      (destruct Hy as [<-|Hy]; [left; left; auto|]; apply in_app_or in Hy;
       destruct Hy; [|]); cbn; auto. }
    assert (HSo' : forall y, In y (vps other) -> S0 y).
    { intros y Hy. apply in_map_iff in Hy. destruct Hy as (n & <- & Hn). auto. }
    destruct (@HDsub pt v (vantage_pt nz)) as [Dd1 Dd2]; auto.
    fold dq in Dd1, Dd2. rewrite <- Hrz in Dd1, Dd2.
    destruct (nleb (nabs (nsub dq r)) max) eqn:Em; cbn [negb].
    2:{ exists nearest, cp. split; auto. split; auto. split; auto.
        intros y Hy Hal Hym. destruct (Hall y Hy) as [Hy'|Hy']; [apply Cn; auto|].
        exfalso. destruct (Hpr y Hy') as [H1 _].
        rewrite (Hym _ Dd1 H1) in Em. discriminate. }
    destruct (match nearest with Some (_, dn) => nltb dn (nabs (nsub r dq)) | None => false end) eqn:E2.
    { exists nearest, cp. split; auto. split; auto. split; auto.
      intros y Hy Hal Hym. destruct (Hall y Hy) as [Hy'|Hy']; [apply Cn; auto|].
      destruct nearest as [[i dn]|] eqn:En; [|discriminate].
      exists i, dn. split; auto. destruct (Hpr y Hy') as [_ H1].
      pose proof (res_valid_D D S0 HD Hpt HSsub Vn eq_refl) as Ddn.
      apply (@near_trans _ (nabs (nsub r dq)) _); auto.
      apply (lt_le Hord); auto. }
    destruct (IH (N.pred d) other (idx + offo) exclude cp) as (ro & co & -> & Hco & Vo & Co); auto.
    assert (Vo' : res_valid dist pt exclude idx sub ro).
    { destruct Hcase as [(-> & -> & -> & ->)|(-> & -> & -> & ->)].
      - apply (@res_valid_shift F dist pt exclude idx (length inside + 1) sub outside
          (mkNode v (Some (mkChildren r (length inside))) :: inside) []); auto.
        + rewrite app_nil_r. reflexivity.
        + cbn. lia.
      - apply (@res_valid_shift F dist pt exclude idx 1 sub inside [mkNode v (Some (mkChildren r (length inside)))] outside); auto. }
    exists (nearer nearest ro), co. split; auto. split; auto. split; [apply nearer_valid; auto|].
    intros y Hy. apply (@nearer_near exclude idx sub ([v] ++ vps pref) (vps other)); auto.
    - intros z [[<-|Hz]|Hz]; auto. apply in_map_iff in Hz. destruct Hz as (n & <- & Hn). auto.
    - apply in_or_app. auto. }
  destruct (nltb r dq) eqn:Elt.
  - apply (Hmain outside inside (length inside + 1) 1); auto.
    intros y Hy. apply in_map_iff in Hy. destruct Hy as (n & <- & Hn).
    rewrite Forall_forall in Hin. specialize (Hin n Hn).
    destruct (@Hprune pt v (vantage_pt n) (vantage_pt nz)) as [H1 _]; auto.
    cbv zeta in H1. fold dq in H1. rewrite <- Hrz in H1. auto.
  - apply (Hmain inside outside 1 (length inside + 1)); auto.
    intros y Hy. apply in_map_iff in Hy. destruct Hy as (n & <- & Hn).
    rewrite Forall_forall in Hout. specialize (Hout n Hn).
    destruct (@Hprune pt v (vantage_pt n) (vantage_pt nz)) as [_ H1]; auto.
    cbv zeta in H1. fold dq in H1. rewrite <- Hrz in H1. auto.
Qed.


Lemma impl_near depth nodes exclude cache :
  (N.of_nat (length nodes) < 2 ^ N.succ depth)%N -> vp_tree dist depth nodes ->
  (forall n, In n nodes -> S0 (vantage_pt n)) -> cache_ok dist pt cache ->
  exists res cache', nearest_in_impl nodes dist max pt exclude cache = Some (res, cache') /\
    cache_ok dist pt cache' /\
    match res with
    | None => forall y, In y (vps nodes) -> allowed exclude y -> ~ surely (dist pt y)
    | Some (x, d) => In x (vps nodes) /\ allowed exclude x /\ d = dist pt x /\ nleb d max = true /\
        forall y, In y (vps nodes) -> allowed exclude y -> surely (dist pt y) -> near d (dist pt y)
    end.
Proof.
  intros Hd Ht HS Hc. unfold nearest_in_impl.
  destruct (@search_near (S (length nodes)) depth nodes 0 exclude cache) as (res & c' & -> & Hc' & Hv & Hcov); auto.
  destruct res as [[i d]|].
  - destruct (Hv i d eq_refl) as (_ & n & Hn & Ha & Hdd). rewrite Nat.sub_0_r in Hn.
    destruct (nleb d max) eqn:Em.
    + rewrite Hn. eexists _, c'. split; eauto. split; auto. cbn. repeat split; auto.
      * apply in_map. eapply nth_error_In; eauto.
      * apply Ha.
      * apply Ha.
      * intros y Hy Hal Hm. destruct (Hcov y Hy Hal Hm) as (i' & d' & E & Hle). congruence.
    + exists None, c'. split; auto. split; auto. intros y Hy Hal Hm.
      destruct (Hcov y Hy Hal Hm) as (i' & d' & E & Hle). injection E as <- <-.
      rewrite (Hm d) in Em; auto; [discriminate|].
      rewrite Hdd. apply HD; auto. apply HS. eapply nth_error_In; eauto.
  - exists None, c'. split; auto. split; auto. intros y Hy Hal Hm.
    destruct (Hcov y Hy Hal Hm) as (i' & d' & E & _). discriminate.
Qed.

Lemma nn_run_near depth nodes : (N.of_nat (length nodes) < 2 ^ N.succ depth)%N -> vp_tree dist depth nodes ->
  (forall n, In n nodes -> S0 (vantage_pt n)) ->
  forall fuel exclude cache, cache_ok dist pt cache -> NoDup exclude -> incl exclude (vps nodes) ->
  length nodes < fuel + length exclude ->
  exists l, nn_run fuel nodes dist max pt exclude cache = Some l /\
    NoDup (map fst l) /\
    (forall i d, In (i, d) l -> In i (vps nodes) /\ allowed exclude i /\ d = dist pt i /\ nleb d max = true) /\
    (forall l1 i d l2, l = l1 ++ (i, d) :: l2 -> forall y, In y (vps nodes) -> allowed exclude y ->
       ~ In y (map fst l1) -> surely (dist pt y) -> near d (dist pt y)) /\
    (forall y, In y (vps nodes) -> allowed exclude y -> ~ In y (map fst l) -> ~ surely (dist pt y)).
Proof.
  intros Hd Ht HS. induction fuel as [|fuel IH]; intros exclude cache Hc Hnd Hincl Hf.
  { exfalso. pose proof (NoDup_incl_length Hnd Hincl) as H. rewrite map_length in H. lia. }
  cbn [nn_run].
  destruct (impl_near exclude Hd Ht HS Hc) as (res & c' & -> & Hc' & Hres).
  destruct res as [[x d]|].
  - destruct Hres as (Hx & Hal & -> & Hm & Hmin).
    destruct (IH (x :: exclude) c') as (l & -> & L1 & L2 & L3 & L4); auto.
    + constructor; auto. apply Hal.
    + intros y [<-|Hy]; auto.
    + cbn. lia.
    + assert (Hal' : forall y, allowed exclude y -> x <> y -> allowed (x :: exclude) y).
      { intros y [H1 H2] Hne. split; auto. intros [H|H]; auto. }
      eexists. split; [reflexivity|]. cbn [map fst]. split; [|split; [|split]].
      * constructor; auto. intros Hin. apply in_map_iff in Hin. destruct Hin as ([i d] & <- & Hin).
        apply L2 in Hin. destruct Hin as (_ & [_ H] & _). apply H. left; auto.
      * intros i d [E|H].
        -- injection E as <- <-. auto.
        -- apply L2 in H. destruct H as (H1 & [H2 H3] & H4 & H5). split; auto. split; auto. split; auto.
           intros H. apply H3. right; auto.
      * intros l1 i d l2 E y Hy Ha Hn Hs. destruct l1 as [|p l1]; cbn [app] in E.
        -- injection E as <- <- <-. auto.
        -- injection E as <- ->. cbn [map fst] in Hn. apply (L3 l1 i d l2); auto.
           ++ apply Hal'; auto. intros ->. apply Hn. left; auto.
           ++ intros H. apply Hn. right; auto.
      * intros y Hy Ha Hn. apply L4; auto.
        -- apply Hal'; auto. intros ->. apply Hn. left; auto.
        -- intros H. apply Hn. right; auto.
  - eexists. split; [reflexivity|]. cbn. split; [constructor|]. split; [intros i d []|]. split; auto.
    intros l1 i d l2 E. destruct l1; discriminate.
Qed.

End Near.

(** *** binary64 *)
Local Open Scope R_scope.

Definition near64 (eps : R) (a b : B64) : Prop := b64_val a <= b64_val b + eps.

Lemma b64_fin_order : order_on B64 b64_fin.
Proof.
  split; [split|].
  - intros x y Hx Hy. rewrite !b64_leb, !Rleb_true by auto. lra.
  - intros x y z Hx Hy Hz. rewrite !b64_leb, !Rleb_true by auto. lra.
  - intros x y Hx Hy. rewrite b64_leb, b64_ltb by auto. unfold Rltb, Rleb. destruct Rlt_dec, Rle_dec; auto; exfalso; lra.
Qed.

Lemma u_half : u_ro radix2 53 = bpow radix2 (-53).
Proof. unfold u_ro. change (- (53) + 1)%Z with (-52)%Z. change (-53)%Z with (-1 + -52)%Z. rewrite bpow_plus. reflexivity. Qed.

(** the error of a difference is relative, also for subnormal numbers *)
Lemma b64_sub_error x y : b64_fin x -> b64_fin y ->
  Rabs (b64_rnd (b64_val x - b64_val y)) <= Rabs (b64_val x - b64_val y) * (1 + bpow radix2 (-53)).
Proof.
  intros Hx Hy. unfold Rminus.
  assert (P : Prec_gt_0 53) by reflexivity.
  destruct (@FLT_plus_error_N_ex radix2 (-1074) 53 P (fun x => negb (Z.even x)) (b64_val x) (- b64_val y)) as (e & He & E).
  - apply b64_val_format; auto.
  - apply generic_format_opp, b64_val_format; auto.
  - change (b64_rnd (b64_val x + - b64_val y)) with (round radix2 (FLT_exp (-1074) 53) ZnearestE (b64_val x + - b64_val y)).
    rewrite E, Rabs_mult. apply Rmult_le_compat_l; [apply Rabs_pos|].
    rewrite u_half in He. pose proof (bpow_gt_0 radix2 (-53)) as Hu. set (u := bpow radix2 (-53)) in *.
    assert (u / (1 + u) <= u). { apply (Rmult_le_reg_r (1 + u)); [lra|]. unfold Rdiv. rewrite Rmult_assoc, Rinv_l by lra. nra. }
    eapply Rle_trans; [apply Rabs_triang|]. rewrite Rabs_R1. lra.
Qed.

Section B64near.
Context (n : nat) (slack bound : R) (dist : nat -> nat -> B64).
Hypothesis Hm : near_metric n slack bound dist.
Let eps := 2 * slack + bpow radix2 (-53) * bound.

Lemma near_sub x y d : b64_fin x -> b64_fin y -> 0 <= b64_val x <= bound -> 0 <= b64_val y <= bound ->
  Rabs (b64_val x - b64_val y) <= b64_val d + 2 * slack ->
  near64 eps (nabs (n := B64) (nsub (n := B64) x y)) d.
Proof.
  intros Fx Fy Px Py H. unfold near64, eps.
  destruct (b64_sub_dist _ _ Fx Fy) as [Fs Vs]; try tauto.
  destruct (b64_abs _ Fs) as [Fa Va]. rewrite Va, Vs.
  eapply Rle_trans; [apply b64_sub_error; auto|]. pose proof (bpow_gt_0 radix2 (-53)).
  assert (Rabs (b64_val x - b64_val y) <= bound) by (apply Rabs_le; lra).
  set (u := bpow radix2 (-53)) in *. set (a := Rabs _) in *. nra.
Qed.

Lemma near_prune q v y z : (q < n)%nat -> (v < n)%nat -> (y < n)%nat -> (z < n)%nat ->
  let d := dist q v in let r := dist v z in
  (nltb (n := B64) r d = true -> nleb (n := B64) (dist v y) r = true ->
     near64 eps (nabs (n := B64) (nsub (n := B64) d r)) (dist q y) /\ near64 eps (nabs (n := B64) (nsub (n := B64) r d)) (dist q y)) /\
  (nltb (n := B64) r d = false -> nleb (n := B64) r (dist v y) = true ->
     near64 eps (nabs (n := B64) (nsub (n := B64) d r)) (dist q y) /\ near64 eps (nabs (n := B64) (nsub (n := B64) r d)) (dist q y)).
Proof.
  intros Hq Hv Hy Hz. cbv zeta. destruct Hm as (Hf & Hsym & Htri).
  destruct (Hf q v Hq Hv) as [Fd Pd], (Hf v z Hv Hz) as [Fr Pr], (Hf q y Hq Hy) as [Fy Py], (Hf v y Hv Hy) as [Fvy Pvy].
  rewrite !b64_leb, b64_ltb by auto.
  pose proof (Htri q y v Hq Hy Hv) as T1. pose proof (Htri v q y Hv Hq Hy) as T2.
  pose proof (Hsym y v Hy Hv) as S1. pose proof (Hsym v q Hv Hq) as S2.
  apply Rabs_le_inv in S1, S2.
  split; intros Hl Hb.
  - apply Rltb_true in Hl. apply Rleb_true in Hb. split; apply near_sub; auto; apply Rabs_le; lra.
  - apply Rltb_false in Hl. apply Rleb_true in Hb. split; apply near_sub; auto; apply Rabs_le; lra.
Qed.

Lemma tree_near_B64 sort choose max q : sort_ok sort -> choose_ok choose ->
  b64_fin max \/ max = b64_inf -> (N.of_nat n <= usize_max)%N -> (q < n)%nat ->
  exists l, tree_nearest (F := B64) sort choose n dist max q = Some l /\ near_list n q (dist q) max eps l.
Proof.
  intros Hs Hc Hmax Hn Hq. unfold tree_nearest. rewrite par_tree_eq by lia.
  pose proof (proj1 Hm) as Hf.
  destruct (@tree_of_spec B64 b64_fin b64_fin_order sort Hs dist choose Hc usize_max (seq 0 n)) as (nodes & -> & Hp & Ht).
  { intros i j Hi Hj. apply in_seq in Hi, Hj. apply Hf; lia. }
  assert (Hl : length nodes = n). { apply Permutation_length in Hp. rewrite seq_length, map_length in Hp. auto. }
  assert (Hin : forall i, In i (map vantage_pt nodes) <-> (i < n)%nat).
  { intros i. split.
    - intros Hi. apply (Permutation_in _ (Permutation_sym Hp)) in Hi. apply in_seq in Hi. lia.
    - intros Hi. apply (Permutation_in _ Hp). apply in_seq. lia. }
  assert (He : 0 <= eps).
  { unfold eps. pose proof (bpow_gt_0 radix2 (-53)). destruct (Hf q q Hq Hq) as [_ Hb].
    destruct Hm as (_ & Hsym & _). pose proof (Hsym q q Hq Hq) as S1. apply Rabs_le_inv in S1. nra. }
  destruct (@nn_run_near B64 b64_fin b64_fin_order dist (fun i => (i < n)%nat)) with (max := max) (near := near64 eps) (pt := q)
    (depth := usize_max) (nodes := nodes) (fuel := S (length nodes)) (exclude := @nil nat) (cache := @nil (nat * B64))
    as (l & El & L1 & L2 & L3 & L4); auto.
  - intros i j Hi Hj. apply Hf; auto.
  - intros a b c Ha Hb Hcc. destruct (Hf a b Ha Hb) as [F1 P1], (Hf b c Hb Hcc) as [F2 P2].
    destruct (b64_sub_dist _ _ F1 F2) as [G1 _]; try tauto. destruct (b64_sub_dist _ _ F2 F1) as [G2 _]; try tauto.
    split; apply b64_abs; auto.
  - intros a _. unfold near64. lra.
  - intros a b c Ha Hb Hcc H. rewrite b64_leb in H by auto. apply Rleb_true in H. unfold near64. lra.
  - intros a b c d. apply near_prune.
  - rewrite Hl. apply pow_big. auto.
  - intros m Hmm. apply Hin. apply in_map; auto.
  - intros k d; discriminate.
  - constructor.
  - intros y [].
  - cbn. lia.
  - assert (Hsure : forall y, (y < n)%nat -> ~ (b64_fin max /\ b64_val max < b64_val (dist q y) + eps) ->
      surely B64 b64_fin max (near64 eps) (dist q y)).
    { intros y Hy Hno a Ha Hnear. destruct Hmax as [Fm| ->].
      - rewrite b64_leb, Rleb_true by auto. destruct (Rlt_dec (b64_val max) (b64_val (dist q y) + eps)) as [H|H].
        + exfalso. auto.
        + unfold near64 in Hnear. lra.
      - destruct Ha as [_ Ha]. destruct a as [[]|[]| |[] m e]; try discriminate; reflexivity. }
    assert (Hbeyond : forall y, (y < n)%nat -> (b64_fin max /\ b64_val max < b64_val (dist q y) + eps) \/
      ~ (b64_fin max /\ b64_val max < b64_val (dist q y) + eps)).
    { intros y Hy. destruct Hmax as [Fm| ->].
      - destruct (Rlt_dec (b64_val max) (b64_val (dist q y) + eps)); [left|right]; tauto.
      - right. intros [[_ H] _]. discriminate. }
    exists l. split; [exact El|]. split; [auto|]. split; [|split].
    + intros i d H. apply L2 in H. destruct H as (H1 & [H2 _] & H3 & H4). rewrite Hin in H1. auto.
    + intros l1 i d l2 E y Hy Hyq Hyl.
      destruct (Hbeyond y Hy) as [[Fm Hb]|Hb].
      * assert (In (i, d) l) as Hi by (rewrite E; apply in_or_app; right; left; auto).
        apply L2 in Hi. destruct Hi as (H1 & _ & -> & H4). rewrite Hin in H1. rewrite b64_leb in H4 by (auto; apply Hf; auto).
        apply Rleb_true in H4. lra.
      * apply (L3 l1 i d l2 E y); auto; [apply Hin; auto|split; auto].
    + intros y Hy Hyq Hyl. destruct (Hbeyond y Hy) as [H|H]; auto. exfalso.
      apply (L4 y); auto; [apply Hin; auto|split; auto].
Qed.
End B64near.
