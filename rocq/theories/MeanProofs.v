(** Lemmas for C73. *)
From Coq Require Import Reals Lra List Arith Lia.
From Coquelicot Require Import Coquelicot.
From Verif Require Import Base Num ModelEvent ModelUnweight SpecWeights SpecUnweight SumProofs UnweightProofs SpecMean.
Import ListNotations.
Local Open Scope R_scope.

Lemma average_ext m n : forall F G v, (forall us, length us = n -> Forall (fun u => 0 <= u < m) us -> F us = G us) -> average m n F v -> average m n G v.
Proof.
  induction n as [|n IH]; intros F G v He; cbn [average]; [intros <-; symmetry; apply He; [reflexivity|constructor]|].
  intros (g & H1 & H2). exists g. split; [|exact H2]. intros u Hu. eapply IH; [|exact (H1 u Hu)]. cbn. intros us Hl Hf. apply He; [cbn; congruence|constructor; assumption].
Qed.
Lemma average_plus m n : 0 < m -> forall F c v, average m n F v -> average m n (fun us => c + F us) (c + v).
Proof.
  intros Hm. induction n as [|n IH]; intros F c v; cbn [average]; [intros <-; reflexivity|].
  intros (g & H1 & H2). exists (fun u => c + g u). split; [intros u Hu; apply IH; exact (H1 u Hu)|].
  replace (m * (c + v)) with (plus (scal (m - 0) c) (m * v)) by (unfold plus, scal; cbn; unfold mult; cbn; ring).
  apply (is_RInt_plus (fun _ => c) g); [apply (is_RInt_const 0 m c)|exact H2].
Qed.
Lemma average_fun m n : 0 < m -> forall F v v', average m n F v -> average m n F v' -> v = v'.
Proof.
  intros Hm. induction n as [|n IH]; intros F v v'; cbn [average]; [congruence|].
  intros (g & H1 & H2) (g' & H1' & H2').
  assert (E : m * v = m * v').
  { pose proof (is_RInt_unique (V := R_CompleteNormedModule) g 0 m (m * v) H2) as H3. rewrite <- H3. apply (is_RInt_unique (V := R_CompleteNormedModule)). eapply is_RInt_ext; [|exact H2']. intros u Hu. rewrite Rmin_left, Rmax_right in Hu by lra.
    assert (Hu' : 0 <= u < m) by lra. apply (IH (fun us => F (u :: us))); auto. }
  apply Rmult_eq_reg_l in E; [exact E|lra].
Qed.

(** a step *)
Lemma step_mean m a x : 0 < m -> 0 <= a <= m -> is_RInt (fun u => if Rltb u a then x else 0) 0 m (a * x).
Proof.
  intros Hm Ha. replace (a * x) with (plus (scal (a - 0) x) (scal (m - a) 0)) by (unfold plus, scal; cbn; unfold mult; cbn; ring).
  apply (is_RInt_Chasles _ 0 a m).
  - apply (is_RInt_ext (fun _ => x)); [|apply (is_RInt_const 0 a x)]. intros u Hu. rewrite Rmin_left, Rmax_right in Hu by lra.
    replace (Rltb u a) with true; [reflexivity|]. symmetry. apply Rltb_true. lra.
  - apply (is_RInt_ext (fun _ => 0)); [|apply (is_RInt_const a m (0 : R))]. intros u Hu. rewrite Rmin_left, Rmax_right in Hu by lra.
    replace (Rltb u a) with false; [reflexivity|]. symmetry. apply Rltb_false. lra.
Qed.

Fixpoint expand (m : R) (events : list (Event RN)) (ds : list R) : list R :=
  match events with
  | [] => []
  | e :: t => if light m e then match ds with d :: ds => d :: expand m t ds | [] => 0 :: expand m t [] end else 0 :: expand m t ds
  end.
Lemma expand_length m events : forall ds, length (expand m events ds) = length events.
Proof. induction events as [|e t IH]; intros ds; [reflexivity|]. cbn. destruct (light m e); [destruct ds|]; cbn; rewrite IH; reflexivity. Qed.
Lemma expand_range m events : 0 < m -> forall ds, Forall (fun u => 0 <= u < m) ds -> Forall (fun u => 0 <= u < m) (expand m events ds).
Proof.
  intros Hm. induction events as [|e t IH]; intros ds H; [constructor|]. cbn. destruct (light m e); [destruct H|]; constructor; auto; lra.
Qed.
Lemma expand_draws m events : forall ds, length ds = length (light_events m events) -> light_draws m events (expand m events ds) = ds.
Proof.
  unfold light_events, light_draws. induction events as [|e t IH]; intros ds; cbn [filter expand]; [destruct ds; [reflexivity|discriminate]|].
  destruct (light m e) eqn:E.
  - destruct ds as [|d ds]; [discriminate|]. cbn [length combine filter fst]. rewrite E. cbn [map snd]. intros H. f_equal. apply IH. congruence.
  - cbn [combine filter fst]. rewrite E. apply IH.
Qed.

(** the events after the second step of the code: what is kept, with the lifted weights *)
Definition lifted (m : R) (events : list (Event RN)) (ds : list R) : list (Event RN) :=
  map (fun e => scaled (boost m e) e) (survivors m events (expand m events ds)).

Lemma scaled_nth k s w : nth k (map (fun x => x * s) w) 0 = nth k w 0 * s.
Proof. rewrite <- (Rmult_0_l s) at 1. rewrite (map_nth (fun x => x * s)). reflexivity. Qed.

Lemma observed_cons O k e l : observed O k (e :: l) = O (ev_id e) (ev_out e) * nth k (ev_weights e) 0 + observed O k l.
Proof. reflexivity. Qed.

Lemma lifted_mean O k m events : 0 < m -> (forall e, In e events -> cw e = 0 -> nth k (ev_weights e) 0 = 0) ->
  average m (length (light_events m events)) (fun ds => observed O k (lifted m events ds)) (observed O k events).
Proof.
  intros Hm. induction events as [|e t IH]; intros Hz; [reflexivity|].
  specialize (IH (fun e' H => Hz e' (or_intror H))). unfold light_events in *. cbn [filter]. destruct (light m e) eqn:E.
  - cbn [length average]. set (c := O (ev_id e) (ev_out e) * (nth k (ev_weights e) 0 * boost m e)).
    exists (fun u => (if Rltb u (Rabs (cw e)) then c else 0) + observed O k t). split.
    + intros u Hu. eapply average_ext; [|apply (average_plus m _ Hm _ (if Rltb u (Rabs (cw e)) then c else 0) _ IH)].
      intros us _ _. unfold lifted, survivors. cbn [expand]. rewrite E. cbn [combine filter fst snd]. rewrite E. cbn [negb orb].
      destruct (Rltb u (Rabs (cw e))); cbn [map].
      * rewrite observed_cons. cbn [scaled ev_id ev_out ev_weights fst]. rewrite scaled_nth. reflexivity.
      * rewrite Rplus_0_l. reflexivity.
    + rewrite observed_cons. unfold light in E. apply Rleb_true in E.
      replace (m * (O (ev_id e) (ev_out e) * nth k (ev_weights e) 0 + observed O k t)) with (plus (Rabs (cw e) * c) (scal (m - 0) (observed O k t))).
      * apply (is_RInt_plus (fun u => if Rltb u (Rabs (cw e)) then c else 0) (fun _ => observed O k t)).
        -- apply step_mean; [exact Hm|]. split; [apply Rabs_pos|exact E].
        -- apply (is_RInt_const 0 m (observed O k t)).
      * change (Rabs (cw e) * c + (m - 0) * observed O k t = m * (O (ev_id e) (ev_out e) * nth k (ev_weights e) 0 + observed O k t)). unfold c, boost. destruct (Req_dec (cw e) 0) as [Hw|Hw].
        { rewrite (Hz e (or_introl eq_refl) Hw), Hw, Rabs_R0. ring. }
        assert (Hp : 0 < Rabs (cw e)) by (apply Rabs_pos_lt; exact Hw).
        destruct (Rltb (Rabs (cw e)) m) eqn:El; [field; lra|]. apply Rltb_false in El. replace (Rabs (cw e)) with m by lra. ring.
  - eapply average_ext; [|rewrite observed_cons; apply (average_plus m _ Hm _ (O (ev_id e) (ev_out e) * nth k (ev_weights e) 0) _ IH)].
    intros us _ _. unfold lifted, survivors. cbn [expand]. rewrite E. cbn [combine filter fst snd]. rewrite E. cbn [negb orb map fst].
    assert (Hb : boost m e = 1).
    { unfold boost. unfold light in E. apply Rleb_false in E. replace (Rltb (Rabs (cw e)) m) with false; [reflexivity|]. symmetry. apply Rltb_false. lra. }
    rewrite observed_cons. cbn [scaled ev_id ev_out ev_weights]. rewrite scaled_nth, Hb, Rmult_1_r. reflexivity.
Qed.

Lemma scaled_scaled a b e : scaled b (scaled a e) = scaled (a * b) e.
Proof. unfold scaled. cbn. f_equal. rewrite map_map. apply map_ext. intros x. ring. Qed.

Lemma unweight_lifted psum m (events : list (Event RN)) ds :
  (forall l, psum l = Rsum l) -> 0 < m -> events <> [] -> Forall (fun e => ev_weights e <> []) events ->
  length ds = length (light_events m events) -> Forall (fun u => 0 <= u < m) ds ->
  exists r, unweight (N := RN) psum m (fun i => nth i ds 0) events = Some (map (scaled r) (lifted m events ds), length ds) /\
    (Rsum (map cw (lifted m events ds)) <> 0 -> r * Rsum (map cw (lifted m events ds)) = Rsum (map cw events)).
Proof.
  intros Hp Hm Hne Hw Hl Hr. pose proof (expand_draws m events ds Hl) as Hd.
  destruct (unweight_spec (draws := fun i => nth i ds 0) (us := expand m events ds) Hp Hm Hne Hw) as (r & H1 & H2 & _).
  - apply expand_length.
  - apply expand_range; assumption.
  - intros i _. rewrite Hd. reflexivity.
  - rewrite Hd in H1. exists r. assert (E : Rsum (map cw (lifted m events ds)) = Rsum (map (fun e => cw e * boost m e) (survivors m events (expand m events ds)))).
    { unfold lifted. rewrite map_map. f_equal. apply map_ext. intros e. unfold cw, scaled. cbn [ev_weights]. apply scaled_nth. }
    rewrite E. split; [|exact H2]. etransitivity; [exact H1|]. do 2 f_equal. unfold lifted. rewrite map_map. apply map_ext. intros e. symmetry. apply scaled_scaled.
Qed.

(** how often events are kept *)
Definition chance (m : R) (e : Event RN) : R := Rmin 1 (Rabs (cw e) / m).
Lemma kept_mean (O : nat -> list (Z * list (FourVector RN)) -> R) m events : 0 < m ->
  average m (length (light_events m events)) (fun ds => Rsum (map (fun e => O (ev_id e) (ev_out e)) (lifted m events ds)))
    (Rsum (map (fun e => O (ev_id e) (ev_out e) * chance m e) events)).
Proof.
  intros Hm. induction events as [|e t IH]; [reflexivity|].
  unfold light_events in *. cbn [filter]. assert (Hc : forall a l, Rsum (a :: l) = a + Rsum l) by reflexivity. destruct (light m e) eqn:E.
  - cbn [length average]. set (c := O (ev_id e) (ev_out e)). set (v := Rsum (map (fun e => O (ev_id e) (ev_out e) * chance m e) t)) in *.
    exists (fun u => (if Rltb u (Rabs (cw e)) then c else 0) + v). split.
    + intros u Hu. eapply average_ext; [|apply (average_plus m _ Hm _ (if Rltb u (Rabs (cw e)) then c else 0) _ IH)].
      intros us _ _. unfold lifted, survivors. cbn [expand]. rewrite E. cbn [combine filter fst snd]. rewrite E. cbn [negb orb].
      destruct (Rltb u (Rabs (cw e))); cbn [map].
      * rewrite Hc. reflexivity.
      * rewrite Rplus_0_l. reflexivity.
    + cbn [map]. rewrite Hc. unfold light in E. apply Rleb_true in E. fold c. fold v.
      replace (m * (c * chance m e + v)) with (plus (Rabs (cw e) * c) (scal (m - 0) v)).
      * apply (is_RInt_plus (fun u => if Rltb u (Rabs (cw e)) then c else 0) (fun _ => v)).
        -- apply step_mean; [exact Hm|]. split; [apply Rabs_pos|exact E].
        -- apply (is_RInt_const 0 m v).
      * change (Rabs (cw e) * c + (m - 0) * v = m * (c * chance m e + v)). unfold chance. rewrite Rmin_right; [field; lra|].
        apply (Rmult_le_reg_r m); [exact Hm|]. unfold Rdiv. rewrite Rmult_assoc, Rinv_l by lra. lra.
  - cbn [map]. rewrite Hc. replace (chance m e) with 1.
    + rewrite Rmult_1_r. eapply average_ext; [|apply (average_plus m _ Hm _ (O (ev_id e) (ev_out e)) _ IH)].
      intros us _ _. unfold lifted, survivors. cbn [expand]. rewrite E. cbn [combine filter fst snd]. rewrite E. cbn [negb orb map fst]. rewrite Hc. reflexivity.
    + unfold light in E. apply Rleb_false in E. unfold chance. rewrite Rmin_left; [reflexivity|].
      apply (Rmult_le_reg_r m); [exact Hm|]. unfold Rdiv. rewrite Rmult_assoc, Rinv_l by lra. lra.
Qed.
