(** Lemmas for C74: the components of the program. *)
From Coq Require Import Reals Lra List Arith Lia Permutation Ascii Bool ZArith.
From Verif Require Import Base BaseProofs Num ModelEvent SpecEvent EventProofs ModelText TextProofs ModelHepMC ModelLHEF ModelStripper ModelIO IOProofs FormatProofs
  ModelSeeds ModelNaive NaiveProofs SpecTree ModelVPTree VPTreeProofs2 SpecSearch RunProofs2 ModelResampler ModelDistance SpecDistance DistanceProofs DistanceProofs2
  ModelCluster ModelOpt ModelUnweight ModelCres SpecCres SpecWeights CresProofs CresProofs2 ModelMain SpecMain MainProofs MainProofs2 MainProofs3 ModelProgram.
Import ListNotations.
Local Open Scope nat_scope.

(** *** Momenta of events that were read *)
Section Momenta.
Context {N : NumOps} (double : parser N) (P : FourVector N -> Prop).
Hypothesis HP : forall e x y z, P (fv_from e x y z).
Definition good (b : EventBuilder N) : Prop := Forall (fun x => P (snd x)) (b_out b).
Lemma good_add b id p : good b -> P p -> good (add_outgoing b id p).
Proof. intros H Hp. unfold good, add_outgoing. cbn [b_out]. apply Forall_app. split; [exact H|]. constructor; [exact Hp|constructor]. Qed.
Lemma particle_good r b b' r' : parse_particle_line double r b = Ok (b', r') -> good b -> good b'.
Proof.
  unfold parse_particle_line. intros H.
  repeat match type of H with
  | bind (or_err ?x _) _ = _ => destruct x as [[? ?]|] eqn:?; cbn [or_err bind] in H; [|discriminate]
  | (if ?b then _ else _) = _ => destruct b; injection H as <- <-
  end; auto using good_add.
Qed.
Lemma names_good names (ws : list N) : forall r seen b r' seen' b', names_loop names ws r seen b = Ok (r', seen', b') -> b_out b' = b_out b.
Proof.
  induction ws as [|w ws IH]; intros r seen b r' seen' b' H; cbn [names_loop] in H; [injection H as _ _ <-; reflexivity|].
  destruct (string_entry r) as [[name r1]|]; cbn [or_err bind] in H; [|discriminate].
  destruct (is_name names name); apply IH in H; rewrite H; reflexivity.
Qed.
Lemma names_line_good names r (ws : list N) b b' r' : parse_weight_names_line names r ws b = Ok (b', r') -> b_out b' = b_out b.
Proof.
  unfold parse_weight_names_line. destruct names as [|n names]; [intros H; injection H as <- _; reflexivity|].
  destruct (u32_entry (tl r)) as [[k r1]|]; cbn [or_err bind]; [|discriminate].
  destruct (names_loop (n :: names) (firstn (N.to_nat k) ws) r1 [] b) as [[[r2 seen] b1]| |] eqn:E; cbn [bind]; try discriminate.
  destruct (List.find _ _); [discriminate|]. intros H. injection H as <- _. eapply names_good. exact E.
Qed.
Lemma lines_good mw names fuel ws : forall r u b u' b', parse_lines double fuel mw names ws r u b = Ok (u', b') -> good b -> good b'.
Proof.
  induction fuel as [|fuel IH]; intros r u b u' b'; cbn [parse_lines]; destruct (find [NL] r) as [pos|];
    [discriminate|intros H; injection H as _ <-; auto| |intros H; injection H as _ <-; auto].
  destruct (skipn (pos + 1) r) as [|c rest]; [apply IH|].
  destruct (_ || _) eqn:E; [apply IH|]. clear E.
  destruct (ceq c "N").
  { destruct (parse_weight_names_line names (c :: rest) ws b) as [[b1 r1]| |] eqn:Ep; cbn [bind]; try discriminate.
    intros H Hb. eapply IH; [exact H|]. unfold good. rewrite (names_line_good _ _ _ _ _ _ Ep). exact Hb. }
  destruct (ceq c "P").
  { destruct (parse_particle_line double (c :: rest) b) as [[b1 r1]| |] eqn:Ep; cbn [bind]; try discriminate.
    intros H Hb. eapply IH; [exact H|]. eapply particle_good; eassumption. }
  destruct (ceq c "U"); [destruct (parse_units_line (c :: rest)) as [[? ?]| |]; cbn [bind]; try discriminate; apply IH|].
  destruct (forallb is_white (c :: rest)); [apply IH|discriminate].
Qed.
Lemma lhef_good ls : forall b b', lhef_particles double ls b = Ok b' -> good b -> good b'.
Proof.
  induction ls as [|l ls IH]; cbn [lhef_particles]; intros b b' H Hb; [injection H as <-; exact Hb|].
  destruct (lhef_particle double l b) as [b1| |] eqn:E; try discriminate. cbn [bind] in H. eapply IH; [exact H|].
  revert E. unfold lhef_particle. intros E.
  repeat match type of E with
  | bind (or_err ?x _) _ = _ => destruct x as [?|]; cbn [or_err bind] in E; [|discriminate]
  | (let '(_, _) := ?p in _) = _ => destruct p
  | (if ?b then _ else _) = _ => destruct b
  | Ok _ = Ok _ => injection E as <-
  end; auto using good_add.
Qed.
Lemma momentum_good t p r : particle_momentum double t = Some (p, r) -> P p.
Proof.
  unfold particle_momentum. intros H.
  repeat match type of H with
  | match ?x with Some _ => _ | None => _ end = _ => destruct x as [[? ?]|]; [|discriminate]
  end. injection H as <- _. apply HP.
Qed.
Lemma stripper_good fuel : forall r b b', stripper_particles double fuel r b = Ok b' -> good b -> good b'.
Proof.
  induction fuel as [|fuel IH]; intros r b b'; cbn [stripper_particles]; destruct (particle_start r) as [r1|];
    [discriminate|intros H; injection H as <-; auto| |intros H; injection H as <-; auto].
  destruct (particle_status r1) as [[st r2]|]; cbn [or_err bind]; [|discriminate]. destruct (negb (st =? 0)%Z).
  { destruct (find (lit "</p>") r2) as [p|]; cbn [or_err bind]; [|discriminate]. apply IH. }
  destruct (particle_id r2) as [[pid r3]|]; cbn [or_err bind]; [|discriminate].
  destruct (strip_prefix [QUOTE; ">"%char] r3) as [r4|]; cbn [or_err bind]; [|discriminate].
  destruct r4 as [|c r4]; [discriminate|]. destruct (128 <=? N_of_ascii c)%N; [discriminate|].
  destruct (particle_momentum double r4) as [[p r5]|] eqn:E; cbn [or_err bind]; [|discriminate].
  destruct (strip_prefix (lit "</p>") r5) as [r6|]; cbn [or_err bind]; [|discriminate].
  intros H Hb. eapply IH; [exact H|]. apply good_add; [exact Hb|]. eapply momentum_good; exact E.
Qed.
Lemma good_new mw : good (builder_new mw).
Proof. constructor. Qed.

(** an event that was read is built from good momenta *)
Lemma convert_good mw names sort r ev : try_convert double mw names sort r = inl ev ->
  exists b, good b /\ ev = build sort b.
Proof.
  intros H. unfold try_convert, as_result in H. destruct r as [t|t|t].
  - destruct (parse_hepmc double mw sort names t) as [ev'| |] eqn:E; try discriminate. injection H as <-.
    unfold parse_hepmc in E. destruct (extract_weights double mw t) as [[[w ws] rest]| |]; cbn [bind] in E; try discriminate.
    destruct (parse_lines _ _ _ _ _ _ _ _) as [[u b]| |] eqn:El; cbn [bind] in E; try discriminate. injection E as <-.
    apply lines_good in El; [|exact (good_new mw)]. eexists. split; [|reflexivity]. destruct u; try exact El.
    unfold good, rescale_energies. cbn [b_out]. apply Forall_map. eapply Forall_impl; [|exact El]. intros [id p] _. apply HP.
  - destruct (parse_lhef double mw sort t) as [ev'| |] eqn:E; try discriminate. injection H as <-.
    unfold parse_lhef in E.
    repeat match type of E with
    | bind (or_err ?x _) _ = _ => destruct x as [?|] eqn:?; cbn [or_err bind] in E; [|discriminate]
    | (let '(_, _) := ?p in _) = _ => destruct p
    | (if ?b then _ else _) = _ => destruct b; [discriminate|]
    end.
    destruct (lhef_particles _ _ _) as [b| |] eqn:El; cbn [bind] in E; try discriminate. injection E as <-.
    apply lhef_good in El; [|exact (good_new mw)]. eauto.
  - destruct (parse_stripper_xml double mw sort t) as [ev'| |] eqn:E; try discriminate. injection H as <-.
    unfold parse_stripper_xml in E.
    repeat match type of E with
    | bind (or_err ?x _) _ = _ => destruct x as [?|] eqn:?; cbn [or_err bind] in E; [|discriminate]
    | (let '(_, _) := ?p in _) = _ => destruct p
    end.
    destruct (stripper_particles _ _ _ _) as [b| |] eqn:El; cbn [bind] in E; try discriminate. injection E as <-.
    apply stripper_good in El; [|exact (good_new mw)]. eauto.
Qed.

(** *** Clustering *)
Context (neutrino hadron : Z -> bool) (delta_r : PseudoJet N -> PseudoJet N -> N)
  (cluster_if : JetAlgorithm -> N -> (PseudoJet N -> bool) -> list (PseudoJet N) -> list (PseudoJet N)) (mw : bool) (sort : sorter) (c : DefaultClustering N).
Notation cluster := (default_cluster neutrino hadron delta_r cluster_if mw sort c).
Lemma default_cluster_some (e : Event N) : exists e', cluster e = Some e' /\ ev_weights e' = ev_weights e /\ ev_id e' = ev_id e.
Proof.
  unfold default_cluster, split_photons.
  destruct (binary_search_by (fun p => Z.compare photon (fst p)) (ev_out e)) as [i|] eqn:Eb; [|eexists; repeat split; reflexivity].
  assert (Hi : i < length (ev_out e)).
  { unfold binary_search_by in Eb. match type of Eb with match ?o with _ => _ end = _ => destruct o as [x|] eqn:En; [|discriminate] end.
    match type of En with nth_error _ ?k = _ => assert (Hk : k < length (ev_out e)) by (apply nth_error_Some; rewrite En; discriminate) end.
    destruct (Z.compare photon (fst x)); [|discriminate|discriminate]. injection Eb as <-. exact Hk. }
  destruct (nth_error (ev_out e) i) as [[id ps]|] eqn:En; [|apply nth_error_None in En; lia].
  destruct (swap_remove_some (ev_out e) (i := i) Hi) as [rest ->]. eexists. repeat split; reflexivity.
Qed.

Lemma fold_good {A} (f : EventBuilder N -> A -> EventBuilder N) l : (forall b x, In x l -> good b -> good (f b x)) ->
  forall b, good b -> good (fold_left f l b).
Proof. intros H. induction l as [|x l IH]; intros b Hb; [exact Hb|]. cbn [fold_left]. apply IH; [intros b' y Hy; apply H; right; exact Hy|]. apply H; [left; reflexivity|exact Hb]. Qed.

Definition good_out (o : list (Z * list (FourVector N))) : Prop := Forall (fun g => Forall P (snd g)) o.
Lemma fold_sorted {A} (f : sorted_out N -> A -> sorted_out N) l : (forall s x, In x l -> good (so_ev s) -> good (so_ev (f s x))) ->
  forall s, good (so_ev s) -> good (so_ev (fold_left f l s)).
Proof. intros H. induction l as [|x l IH]; intros b Hb; [exact Hb|]. cbn [fold_left]. apply IH; [intros b' y Hy; apply H; right; exact Hy|]. apply H; [left; reflexivity|exact Hb]. Qed.
Lemma cluster_good e e' : good_out (ev_out e) -> cluster e = Some e' -> exists b, good b /\ ev_out e' = ev_out (build sort b).
Proof.
  intros Hg. unfold default_cluster.
  assert (Hs : forall s rest, split_photons neutrino delta_r mw c (ev_out e) = Some (s, rest) -> good (so_ev s) /\ good_out rest).
  { unfold split_photons. intros s rest. destruct (binary_search_by (fun p => Z.compare photon (fst p)) (ev_out e)) as [i|].
    - destruct (nth_error (ev_out e) i) as [[id ps]|] eqn:En; [|discriminate]. destruct (swap_remove i (ev_out e)) as [r|] eqn:Er; [|discriminate].
      intros H. injection H as <- <-. apply swap_remove_perm in Er as (x & Hx & Hp).
      assert (Hps : Forall P ps). { apply nth_error_In in En. unfold good_out in Hg. rewrite Forall_forall in Hg. exact (Hg _ En). }
      split; [|unfold good_out in *; apply (Permutation_Forall Hp) in Hg; inversion Hg; assumption].
      apply fold_sorted; [|exact (good_new mw)]. intros s x0 Hin Hs. rewrite Forall_forall in Hps. unfold treat_photon.
      destruct (is_isolated neutrino delta_r c x0 (ev_out e)); [apply good_add; auto|]. destruct (is_some (cl_lepton c)); [exact Hs|apply good_add; auto].
    - intros H. injection H as <- <-. split; [exact (good_new mw)|exact Hg]. }
  destruct (split_photons neutrino delta_r mw c (ev_out e)) as [[s rest]|]; [|discriminate]. destruct (Hs s rest eq_refl) as [H1 H2].
  intros H. injection H as <-. cbn [ev_out].
  eexists; split; [|reflexivity].
  assert (Hj : forall id js b, good b -> good (fold_left (fun b jet => add_outgoing b id (fv_of_jet jet)) js b)).
  { intros id js b Hb. apply fold_good; [|exact Hb]. intros b' x _ Hb'. apply good_add; [exact Hb'|]. apply HP. }
  assert (Ho : good (so_ev (fold_left (treat_other neutrino hadron c) rest s))).
  { apply fold_sorted; [|exact H1]. intros s' [id out] Hin Hs'. unfold treat_other. unfold good_out in H2. rewrite Forall_forall in H2. specialize (H2 _ Hin). cbn [snd] in H2.
    destruct (is_parton id || is_hadron hadron (Z.abs id)); [exact Hs'|]. destruct (is_clustered_to_lepton c id); [exact Hs'|].
    destruct (cl_neutrinos c || negb (neutrino (Z.abs id))); [|exact Hs']. apply fold_good; [|exact Hs'].
    intros b x Hx Hb. apply good_add; [exact Hb|]. rewrite Forall_forall in H2. auto. }
  destruct (cl_lepton c); auto.
Qed.
End Momenta.

(** *** Distances *)
Section Distances.
Context (sort : sorter) (km : assignment RN) (tau : R).
Hypothesis Hsort : sort_ok sort.
Hypothesis Hkm : km_ok km.
Definition built (e : Event RN) : Prop := exists ps, phys ps /\ ev_out e = ev_out (build sort (made (N := RN) false ps [])).
Lemma made_all mw (ps : list (Z * FourVector RN)) : b_out (made (N := RN) mw ps []) = ps.
Proof.
  unfold made. cbn [fold_left]. assert (H : forall (b : EventBuilder RN), b_out (fold_left (fun b x => add_outgoing b (fst x) (snd x)) ps b) = b_out b ++ ps).
  { induction ps as [|[id p] ps IH]; intros b; [symmetry; apply app_nil_r|]. cbn [fold_left]. rewrite IH. unfold add_outgoing. cbn [b_out fst snd]. rewrite <- app_assoc. reflexivity. }
  rewrite H. reflexivity.
Qed.
Lemma built_good (b : EventBuilder RN) e : good physical b -> ev_out e = ev_out (build sort b) -> built e.
Proof.
  intros H He. exists (b_out b). split; [exact H|]. rewrite He. unfold build. cbn [ev_out]. rewrite made_all. reflexivity.
Qed.
Lemma built_out e : built e -> good_out physical (ev_out e).
Proof. intros (ps & Hp & ->). apply (built_facts Hsort false [] Hp). Qed.
Definition ddist (e1 e2 : Event RN) : R := match distance (N := RN) sort km tau e1 e2 with Some d => d | None => 0%R end.
Lemma ddist_metric e1 e2 e3 : built e1 -> built e2 -> built e3 ->
  distance (N := RN) sort km tau e1 e2 = Some (ddist e1 e2) /\ ddist e1 e2 = ddist e2 e1 /\ (ddist e1 e3 <= ddist e1 e2 + ddist e2 e3)%R /\ (0 <= ddist e1 e2)%R.
Proof.
  intros (p1 & H1 & O1) (p2 & H2 & O2) (p3 & H3 & O3).
  destruct (@metric sort km tau false Hsort Hkm p1 p2 p3 [] [] [] H1 H2 H3) as (d12 & d23 & d13 & A & B & C & Hn & _ & E & Ht).
  unfold ddist, distance in *. rewrite O1, O2, O3. cbn [n0 RN] in *.
  match type of A with ?x = _ => change x with (merge_loop (N := RN) sort km tau 0%R (ev_out (build sort (made (N := RN) false p1 []))) (ev_out (build sort (made (N := RN) false p2 [])))) in A end.
  match type of B with ?x = _ => change x with (merge_loop (N := RN) sort km tau 0%R (ev_out (build sort (made (N := RN) false p2 []))) (ev_out (build sort (made (N := RN) false p3 [])))) in B end.
  match type of C with ?x = _ => change x with (merge_loop (N := RN) sort km tau 0%R (ev_out (build sort (made (N := RN) false p1 []))) (ev_out (build sort (made (N := RN) false p3 [])))) in C end.
  match type of E with ?x = _ => change x with (merge_loop (N := RN) sort km tau 0%R (ev_out (build sort (made (N := RN) false p2 []))) (ev_out (build sort (made (N := RN) false p1 [])))) in E end.
  rewrite A, B, C, E. auto.
Qed.
Lemma wrapper_metric evs : Forall built evs -> metric_on (length evs) (dist_wrapper (N := RN) ddist evs).
Proof.
  intros Hb. rewrite Forall_forall in Hb.
  assert (Hn : forall i, i < length evs -> exists e, nth_error evs i = Some e /\ built e).
  { intros i Hi. destruct (nth_error evs i) as [e|] eqn:E; [|apply nth_error_None in E; lia]. exists e. split; [reflexivity|]. apply Hb. eapply nth_error_In. exact E. }
  unfold dist_wrapper. split.
  - intros i j Hi Hj. destruct (Hn i Hi) as (e1 & -> & B1). destruct (Hn j Hj) as (e2 & -> & B2). apply (ddist_metric e1 e2 e2); assumption.
  - intros i j k Hi Hj Hk. destruct (Hn i Hi) as (e1 & -> & B1). destruct (Hn j Hj) as (e2 & -> & B2). destruct (Hn k Hk) as (e3 & -> & B3). apply (ddist_metric e1 e2 e3); assumption.
Qed.
End Distances.
