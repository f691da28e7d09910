(** Proofs about the C API. *)
From Coq Require Import ZArith Ascii.
From Verif Require Import Base Num BaseProofs ModelEvent SpecEvent EventProofs ModelCApi SpecCApi.

Lemma Forall2_impl {A B} (P Q : A -> B -> Prop) l l' : (forall a b, P a b -> Q a b) -> Forall2 P l l' -> Forall2 Q l l'.
Proof. induction 2; constructor; auto. Qed.
Lemma Forall2_nth_error_r {A B} (P : A -> B -> Prop) l l' : Forall2 P l l' ->
  forall i y, nth_error l' i = Some y -> exists x, nth_error l i = Some x /\ P x y.
Proof.
  induction 1 as [|a b l l' Hab _ IH]; intros [|i] y Hi; cbn in *; try discriminate; eauto.
  injection Hi as <-. eauto.
Qed.

Lemma as_i32_small n : (Z.of_nat n < 2 ^ 31)%Z -> as_i32 n = Z.of_nat n.
Proof. intros H. unfold as_i32. rewrite Z.mod_small; lia. Qed.

Lemma copy_at mem msg buf len i c : i < len -> nth_error msg i = Some c ->
  copy_bytes mem msg buf len (buf + Z.of_nat i)%Z = c.
Proof.
  intros Hi Hc. unfold copy_bytes. destruct (Z.leb_spec buf (buf + Z.of_nat i)); [|lia].
  destruct (Z.ltb_spec (buf + Z.of_nat i) (buf + Z.of_nat len)); [|lia]. cbn [andb].
  replace (Z.to_nat _) with i by lia. apply nth_error_nth. exact Hc.
Qed.

Lemma copy_outside mem msg buf len b : (b < buf \/ buf + Z.of_nat len <= b)%Z -> copy_bytes mem msg buf len b = mem b.
Proof.
  intros H. unfold copy_bytes. destruct (Z.leb_spec buf b); cbn [andb]; auto.
  destruct (Z.ltb_spec b (buf + Z.of_nat len)); auto. lia.
Qed.

Lemma nth_error_firstn_some {A} (l : list A) n i c : nth_error (firstn n l) i = Some c -> i < n /\ nth_error l i = Some c.
Proof.
  revert l i. induction n as [|n IH]; intros [|x l] [|i]; cbn; try discriminate; intros H.
  - split; [lia|exact H].
  - apply IH in H. destruct H. split; [lia|auto].
Qed.

Lemma get_buffer msg mem buf buflen : 0 < buflen ->
  let '(mem', r) := last_err_internal (Some msg) mem buf buflen in
  bytes_at mem' buf (firstn (buflen - 1) msg ++ [zero]) /\ only_changed mem mem' buf buflen /\
  r = if buflen <=? length msg then as_i32 (1 + length msg) else 0%Z.
Proof.
  intros Hb. unfold last_err_internal. destruct (Nat.eqb_spec buflen 0); [lia|].
  set (len := Nat.min (length msg) (buflen - 1)).
  split; [|split; [|reflexivity]].
  - intros i c Hi. unfold write_byte.
    assert (Hl : length (firstn (buflen - 1) msg) = len) by (rewrite firstn_length; unfold len; lia).
    destruct (Nat.lt_ge_cases i len) as [Hlt|Hge].
    + rewrite nth_error_app1 in Hi by lia. destruct (Z.eqb_spec (buf + Z.of_nat i) (buf + Z.of_nat len)); [lia|].
      apply nth_error_firstn_some in Hi. apply copy_at; tauto.
    + rewrite nth_error_app2 in Hi by lia. rewrite Hl in Hi.
      destruct (i - len) as [|k] eqn:E; cbn in Hi; [|destruct k; discriminate]. injection Hi as <-.
      replace i with len by lia. rewrite Z.eqb_refl. reflexivity.
  - intros b Hout. unfold write_byte.
    assert (len < buflen) by (unfold len; lia).
    destruct (Z.eqb_spec b (buf + Z.of_nat len)); [lia|]. apply copy_outside. lia.
Qed.

Lemma calls_last calls mem t : fst (fold_left do_call (rev calls) (fun _ => None, mem)) t = last_error t calls.
Proof.
  induction calls as [|c e IH]; [reflexivity|]. cbn [rev]. rewrite fold_left_app. cbn [fold_left].
  destruct c as [t' [|msg|]|t' buf buflen]; cbn [do_call fst cres_run last_error]; auto.
  - unfold set_error. rewrite (Nat.eqb_sym t t'). destruct (Nat.eqb t' t); auto.
  - unfold set_error. rewrite (Nat.eqb_sym t t'). destruct (Nat.eqb t' t); auto.
Qed.

Section Views.
Context {N : NumOps}.
Implicit Types (m : memory N) (f : Z -> option (word N)).

Lemma store_outside ws : forall f a b, (b < a \/ a + Z.of_nat (length ws) <= b)%Z -> store f a ws b = f b.
Proof.
  induction ws as [|w t IH]; intros f a b H; cbn [store]; auto. cbn [length] in H.
  rewrite IH by lia. destruct (Z.eqb_spec b a); auto. lia.
Qed.
Lemma store_at ws : forall f a i w, nth_error ws i = Some w -> store f a ws (a + Z.of_nat i)%Z = Some w.
Proof.
  induction ws as [|x t IH]; intros f a [|i] w H; cbn [nth_error store] in *; try discriminate.
  - injection H as ->. rewrite store_outside by lia. rewrite Z.add_0_r, Z.eqb_refl. reflexivity.
  - replace (a + Z.of_nat (S i))%Z with (a + 1 + Z.of_nat i)%Z by lia. apply IH. exact H.
Qed.

(** Everything below [m_next] of the first memory is as before. *)
Definition extends m m' : Prop := (m_next m <= m_next m')%Z /\ forall b, (b < m_next m)%Z -> m_at m' b = m_at m b.
Lemma extends_refl m : extends m m.
Proof. split; [lia|auto]. Qed.
Lemma extends_trans m1 m2 m3 : extends m1 m2 -> extends m2 m3 -> extends m1 m3.
Proof. intros [A B] [C D]. split; [lia|]. intros b H. rewrite D by lia. auto. Qed.
Lemma alloc_extends m ws : extends m (snd (alloc m ws)).
Proof. unfold alloc. cbn. split; cbn; [lia|]. intros b H. apply store_outside. lia. Qed.

Definition array_in m a (ws : list (word N)) : Prop :=
  (a + Z.of_nat (length ws) <= m_next m)%Z /\ forall i w, nth_error ws i = Some w -> m_at m (a + Z.of_nat i)%Z = Some w.
Lemma array_extends m m' a ws : extends m m' -> array_in m a ws -> array_in m' a ws.
Proof.
  intros [A B] [C D]. split; [lia|]. intros i w H. rewrite B; auto.
  pose proof (nth_error_Some ws i) as [Hn _]. rewrite H in Hn. specialize (Hn ltac:(discriminate)). lia.
Qed.
Lemma alloc_array m ws : array_in (snd (alloc m ws)) (fst (alloc m ws)) ws.
Proof. unfold alloc. cbn. split; cbn; [lia|]. intros i w H. apply store_at. exact H. Qed.

Lemma flat_map_nth {A B} (g : A -> list B) c l i x k y :
  (forall z, length (g z) = c) -> nth_error l i = Some x -> nth_error (g x) k = Some y ->
  nth_error (flat_map g l) (c * i + k) = Some y.
Proof.
  intros Hc. revert i. induction l as [|z t IH]; intros [|i] Hi Hk; cbn [nth_error flat_map] in *; try discriminate.
  - injection Hi as ->. replace (c * 0 + k) with k by lia. rewrite nth_error_app1; auto.
    apply nth_error_Some. congruence.
  - rewrite nth_error_app2 by (rewrite Hc; lia). rewrite Hc. replace (c * S i + k - c) with (c * i + k) by lia. auto.
Qed.

Lemma views_spec out : forall m,
  let '(vs, m') := type_set_views m out in
  extends m m' /\ Forall2 (fun v g => tv_pid v = fst g /\ tv_n_momenta v = length (snd g) /\
    array_in m' (tv_momenta v) (flat_map momentum_words (snd g))) vs out.
Proof.
  induction out as [|[id ps] t IH]; intros m; cbn [type_set_views].
  - split; [apply extends_refl|constructor].
  - pose proof (alloc_extends m (flat_map momentum_words ps)) as E. pose proof (alloc_array m (flat_map momentum_words ps)) as A.
    destruct (alloc m (flat_map momentum_words ps)) as [a m1]. cbn [fst snd] in *.
    specialize (IH m1). destruct (type_set_views m1 t) as [vs m2]. destruct IH as [E' H].
    split; [eapply extends_trans; eauto|]. constructor; auto. cbn. split; [auto|split; [auto|]]. eapply array_extends; eauto.
Qed.

Definition shown m (v : EventView) out : Prop :=
  vw_n_type_sets v = length out /\ exists vs, Forall2 (fun v g => tv_pid v = fst g /\ tv_n_momenta v = length (snd g) /\
    array_in m (tv_momenta v) (flat_map momentum_words (snd g))) vs out /\ array_in m (vw_type_sets v) (flat_map view_words vs).

Lemma shown_extends m m' v out : extends m m' -> shown m v out -> shown m' v out.
Proof.
  intros E (A & vs & B & C). split; auto. exists vs. split; [|eapply array_extends; eauto].
  revert B. apply Forall2_impl. intros a b (X & Y & Z). split; [auto|split; [auto|]]. eapply array_extends; eauto.
Qed.

Lemma shown_shows m v out : shown m v out -> shows_particles m v out.
Proof.
  intros (A & vs & B & C). split; [exact A|]. intros i id ps Hi.
  destruct (Forall2_nth_error_r _ _ _ B i _ Hi) as (s & Hs & Hpid & Hn & Ha). cbn [fst snd] in *.
  exists (tv_momenta s). cbv zeta.
  assert (W : forall k w, nth_error (view_words s) k = Some w -> m_at m (vw_type_sets v + 3 * Z.of_nat i + Z.of_nat k)%Z = Some w).
  { intros k w Hk. destruct C as [_ C]. replace (_ + Z.of_nat k)%Z with (vw_type_sets v + Z.of_nat (3 * i + k))%Z by lia.
    apply C. apply (flat_map_nth view_words 3 vs i s k w); auto. }
  split; [|split; [|split]].
  - rewrite <- Hpid. specialize (W 0 _ eq_refl). cbn in W. rewrite Z.add_0_r in W. exact W.
  - exact (W 1 _ eq_refl).
  - rewrite <- Hn. exact (W 2 _ eq_refl).
  - intros k p Hk. destruct Ha as [_ Ha].
    assert (M : forall j w, nth_error (momentum_words p) j = Some w -> m_at m (tv_momenta s + 4 * Z.of_nat k + Z.of_nat j)%Z = Some w).
    { intros j w Hj. replace (_ + Z.of_nat j)%Z with (tv_momenta s + Z.of_nat (4 * k + j))%Z by lia.
      apply Ha. apply (flat_map_nth momentum_words 4 ps k p j w); auto. }
    split; [|split; [|split]].
    + specialize (M 0 _ eq_refl). cbn in M. rewrite Z.add_0_r in M. exact M.
    + exact (M 1 _ eq_refl).
    + exact (M 2 _ eq_refl).
    + exact (M 3 _ eq_refl).
Qed.

Lemma event_view_spec m ev place :
  let '(v, m') := event_view m ev place in
  extends m m' /\ vw_id v = ev_id ev /\ vw_weights v = place /\ vw_n_weights v = length (ev_weights ev) /\ shown m' v (ev_out ev).
Proof.
  unfold event_view. pose proof (views_spec (ev_out ev) m) as H. destruct (type_set_views m (ev_out ev)) as [vs m1].
  destruct H as [E F]. pose proof (alloc_extends m1 (flat_map view_words vs)) as E'.
  pose proof (alloc_array m1 (flat_map view_words vs)) as A. destruct (alloc m1 (flat_map view_words vs)) as [a m2]. cbn [fst snd] in *.
  split; [eapply extends_trans; eauto|]. cbn. split; [auto|]. split; [auto|]. split; [auto|].
  split; cbn; [eapply Forall2_len; eauto|]. exists vs. split; [|exact A].
  revert F. apply Forall2_impl. intros x y (X & Y & Z). split; [auto|split; [auto|]]. eapply array_extends; eauto.
Qed.

(** Loops *)
Lemma for_each_snoc {S} n (g : nat -> S -> option S) s :
  for_each (Datatypes.S n) g s = match for_each n g s with Some s' => g n s' | None => None end.
Proof. unfold for_each. rewrite seq_S, fold_left_app. reflexivity. Qed.

Lemma for_each_fold {A S} (l : list A) (g : nat -> S -> option S) (h : S -> A -> S) s :
  (forall i x s, nth_error l i = Some x -> g i s = Some (h s x)) -> for_each (length l) g s = Some (fold_left h l s).
Proof.
  intros H. assert (G : forall n, n <= length l -> for_each n g s = Some (fold_left h (firstn n l) s)).
  { induction n as [|n IH]; intros Hn; [reflexivity|]. rewrite for_each_snoc, IH by lia.
    destruct (nth_error l n) as [x|] eqn:E; [|apply nth_error_None in E; lia].
    rewrite (H _ _ _ E). f_equal.
    assert (Ef : firstn (Datatypes.S n) l = firstn n l ++ [x]).
    { clear - E. revert l E. induction n as [|n IH]; intros [|y l] E; cbn in *; try discriminate.
      - congruence.
      - f_equal. apply IH. exact E. }
    rewrite Ef, fold_left_app. reflexivity. }
  rewrite (G _ (le_n _)), firstn_all. reflexivity.
Qed.

(** Momenta with pt computed from the components *)
Definition from_components (p : FourVector N) : FourVector N := fv_from (fv_e p) (fv_x p) (fv_y p) (fv_z p).

Lemma read_back sort m v weights out : shows_weights m v weights -> shows_particles m v out ->
  event_of_view sort m v = Some
    (let ev := build sort (mkBuilder weights (map (fun x => (fst x, from_components (snd x))) (particles_of out))) in
     mkEvent (vw_id v) (ev_weights ev) (ev_out ev)).
Proof.
  intros [Hn Hw] [Ht Hp]. unfold event_of_view. rewrite Hn.
  rewrite (for_each_fold weights _ (add_weight true)).
  2: { intros i w s Hi. unfold read_num. rewrite (Hw _ _ Hi). reflexivity. }
  rewrite add_all_weights by discriminate. cbn [builder_new b_weights b_out app].
  rewrite Ht.
  rewrite (for_each_fold out _ (fun b g => fold_left (fun b p => add_outgoing b (fst g) (from_components p)) (snd g) b)).
  - assert (E : forall b, fold_left (fun b g => fold_left (fun b p => add_outgoing b (fst g) (from_components p)) (snd g) b) out b
      = mkBuilder (b_weights b) (b_out b ++ map (fun x => (fst x, from_components (snd x))) (particles_of out))).
    { clear. induction out as [|[id ps] t IH]; intros b; [destruct b; cbn; rewrite app_nil_r; reflexivity|].
      cbn [fold_left fst snd]. rewrite IH.
      change (particles_of ((id, ps) :: t)) with (map (pair id) ps ++ particles_of t).
      rewrite map_app, map_map. cbn [fst snd].
      assert (E1 : fold_left (fun b p => add_outgoing b id (from_components p)) ps b
        = mkBuilder (b_weights b) (b_out b ++ map (fun x => (id, from_components x)) ps)).
      { clear. revert b. induction ps as [|p t IH]; intros [w o]; cbn; [rewrite app_nil_r; auto|]. rewrite IH. cbn.
        rewrite <- app_assoc. reflexivity. }
      rewrite E1. cbn [b_weights b_out]. rewrite <- app_assoc. reflexivity. }
    rewrite E. reflexivity.
  - intros i [id ps] s Hi. destruct (Hp _ _ _ Hi) as (a & A1 & A2 & A3 & A4). unfold read_view. rewrite A1, A2, A3.
    cbn [tv_n_momenta tv_momenta tv_pid fst snd].
    apply for_each_fold. intros k p b Hk. destruct (A4 _ _ Hk) as (B1 & B2 & B3 & B4).
    unfold read_momentum, read_num. rewrite B1, B2, B3, B4. reflexivity.
Qed.
End Views.
