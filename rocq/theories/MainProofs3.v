(** The total of the weights in the files. *)
From Coq Require Import Reals Lra List Arith Lia Permutation Ascii Bool.
From Verif Require Import Base BaseProofs Num ModelEvent ModelText TextProofs ModelHepMC HepMCProofs3 ModelLHEF ModelStripper ModelIO IOProofs ModelCres SpecCres
  SpecWeights CresProofs CresProofs2 ModelResampler ModelMain SpecMain MainProofs MainProofs2.
Import ListNotations.
Local Open Scope nat_scope.

Lemma add_one (N : NumOps) mw (w : N) : b_weights (add_weight mw (builder_new mw) w) = [w].
Proof. destruct mw; reflexivity. Qed.

Section One.
Context (N : NumOps) (double : parser N) (mw : bool) (names : list text) (sort : sorter).
Hypothesis Hm : mw = false \/ names = [].

Lemma particle_keeps r b b' r' : parse_particle_line double r b = Ok (b', r') -> b_weights b' = b_weights b.
Proof.
  unfold parse_particle_line. intros H.
  repeat match type of H with
  | bind (or_err ?x _) _ = _ => destruct x as [[? ?]|] eqn:?; cbn [or_err bind] in H; [|discriminate]
  | (if ?b then _ else _) = _ => destruct b; injection H as <- <-
  end; reflexivity.
Qed.
Lemma lines_keep_single fuel ws : forall r u b u' b', parse_lines double fuel false names ws r u b = Ok (u', b') -> b_weights b' = b_weights b.
Proof.
  induction fuel as [|fuel IH]; intros r u b u' b'; cbn [parse_lines]; destruct (find [NL] r) as [pos|];
    [discriminate|intros H; injection H as _ <-; reflexivity| |intros H; injection H as _ <-; reflexivity].
  destruct (skipn (pos + 1) r) as [|c rest]; [apply IH|]. cbn [negb andb].
  destruct (ceq c "V" || ceq c "F" || ceq c "H" || ceq c "C" || ceq c "N") eqn:E; [apply IH|].
  rewrite !orb_false_iff in E. destruct E as [_ ->].
  destruct (ceq c "P").
  { destruct (parse_particle_line double (c :: rest) b) as [[b1 r1]| |] eqn:Ep; cbn [bind]; try discriminate.
    intros H. apply IH in H. rewrite H. exact (particle_keeps _ _ _ _ Ep). }
  destruct (ceq c "U"); [destruct (parse_units_line (c :: rest)) as [[? ?]| |]; cbn [bind]; try discriminate; apply IH|].
  destruct (forallb is_white (c :: rest)); [apply IH|discriminate].
Qed.
Lemma lines_keep fuel ws r u b u' b' : parse_lines double fuel mw names ws r u b = Ok (u', b') -> b_weights b' = b_weights b.
Proof. destruct Hm as [->| ->]; [apply lines_keep_single|apply parse_lines_unnamed]. Qed.
Lemma lhef_keep ls : forall b b', lhef_particles double ls b = Ok b' -> b_weights b' = b_weights b.
Proof.
  induction ls as [|l ls IH]; cbn [lhef_particles]; intros b b' H; [injection H as <-; reflexivity|].
  destruct (lhef_particle double l b) as [b1| |] eqn:E; try discriminate. cbn [bind] in H. apply IH in H. rewrite H.
  revert E. unfold lhef_particle. intros E.
  repeat match type of E with
  | bind (or_err ?x _) _ = _ => destruct x as [?|]; cbn [or_err bind] in E; [|discriminate]
  | (let '(_, _) := ?p in _) = _ => destruct p
  | (if ?b then _ else _) = _ => destruct b
  | Ok _ = Ok _ => injection E as <-
  end; reflexivity.
Qed.
Lemma stripper_keep fuel : forall r b b', stripper_particles double fuel r b = Ok b' -> b_weights b' = b_weights b.
Proof.
  induction fuel as [|fuel IH]; intros r b b'; cbn [stripper_particles]; destruct (particle_start r) as [r1|];
    [discriminate|intros H; injection H as <-; reflexivity| |intros H; injection H as <-; reflexivity].
  destruct (particle_status r1) as [[st r2]|]; cbn [or_err bind]; [|discriminate]. destruct (negb (st =? 0)%Z).
  { destruct (find (lit "</p>") r2) as [p|]; cbn [or_err bind]; [|discriminate]. apply IH. }
  destruct (particle_id r2) as [[pid r3]|]; cbn [or_err bind]; [|discriminate].
  destruct (strip_prefix [QUOTE; ">"%char] r3) as [r4|]; cbn [or_err bind]; [|discriminate].
  destruct r4 as [|c r4]; [discriminate|]. destruct (128 <=? N_of_ascii c)%N; [discriminate|].
  destruct (particle_momentum double r4) as [[p r5]|]; cbn [or_err bind]; [|discriminate].
  destruct (strip_prefix (lit "</p>") r5) as [r6|]; cbn [or_err bind]; [|discriminate].
  intros H. apply IH in H. rewrite H. reflexivity.
Qed.

(** Without named weights every event has one weight. *)
Lemma convert_one r ev : try_convert double mw names sort r = inl ev -> length (ev_weights ev) = 1.
Proof.
  unfold try_convert, as_result. destruct r as [t|t|t].
  - destruct (parse_hepmc double mw sort names t) as [ev'| |] eqn:E; try discriminate. intros H. injection H as <-.
    unfold parse_hepmc in E. destruct (extract_weights double mw t) as [[[w ws] rest]| |]; cbn [bind] in E; try discriminate.
    destruct (parse_lines _ _ _ _ _ _ _ _) as [[u b]| |] eqn:El; cbn [bind] in E; try discriminate. injection E as <-.
    apply lines_keep in El. destruct u; unfold build, rescale_energies; cbn [ev_weights b_weights]; rewrite El, add_one; reflexivity.
  - destruct (parse_lhef double mw sort t) as [ev'| |] eqn:E; try discriminate. intros H. injection H as <-.
    unfold parse_lhef in E.
    repeat match type of E with
    | bind (or_err ?x _) _ = _ => destruct x as [?|] eqn:?; cbn [or_err bind] in E; [|discriminate]
    | (let '(_, _) := ?p in _) = _ => destruct p
    | (if ?b then _ else _) = _ => destruct b; [discriminate|]
    end.
    destruct (lhef_particles _ _ _) as [b| |] eqn:El; cbn [bind] in E; try discriminate. injection E as <-.
    apply lhef_keep in El. unfold build; cbn [ev_weights]. rewrite El, add_one. reflexivity.
  - destruct (parse_stripper_xml double mw sort t) as [ev'| |] eqn:E; try discriminate. intros H. injection H as <-.
    unfold parse_stripper_xml in E.
    repeat match type of E with
    | bind (or_err ?x _) _ = _ => destruct x as [?|] eqn:?; cbn [or_err bind] in E; [|discriminate]
    | (let '(_, _) := ?p in _) = _ => destruct p
    end.
    destruct (stripper_particles _ _ _ _) as [b| |] eqn:El; cbn [bind] in E; try discriminate. injection E as <-.
    apply stripper_keep in El. unfold build; cbn [ev_weights]. rewrite El, add_one. reflexivity.
Qed.
End One.

(** *** The total *)
Section Total.
Context {N : NumOps} (double : parser N) (mw : bool) (names : list text) (sort : sorter) (cluster : Event N -> option (Event N)).
Hypothesis Hm : mw = false \/ names = [].
Hypothesis Hcluster : forall e e', cluster e = Some e' -> ev_weights e' = ev_weights e.

Lemma clustered_of records evs evs0 : Forall2 (fun r ev => try_convert double mw names sort r = inl ev) records evs ->
  events_of (try_convert double mw names sort) (try_cluster cluster) (map inl records) evs0 ->
  map ev_weights evs0 = map ev_weights evs /\
  map ev_weights (filter (fun e => negb (has_particles e)) evs0) = map ev_weights (filter (fun e => negb (keeps_particles cluster e)) evs) /\
  Forall (fun ws => length ws = 1) (map ev_weights evs).
Proof.
  intros Hc [Hl He]. assert (H : Forall2 (fun e e0 => ev_weights e0 = ev_weights e /\ has_particles e0 = keeps_particles cluster e /\ length (ev_weights e) = 1) evs evs0).
  { apply Forall2_from_nth.
    - rewrite Hl, map_length. symmetry. exact (Forall2_len _ _ _ _ _ Hc).
    - intros i e e0 Hi Hi0. destruct (nth_error records i) as [r|] eqn:Er.
      2:{ apply nth_error_None in Er. assert (i < length evs) by (apply nth_error_Some; congruence). rewrite (Forall2_len _ _ _ _ _ Hc) in Er. lia. }
      destruct (Forall2_nth _ _ _ _ _ Hc i r Er) as (e1 & E1 & Hr). rewrite Hi in E1. injection E1 as <-.
      destruct (He i _ _ (map_nth_error _ _ _ Er) Hi0) as (r' & ev & ev' & A & B & C & X). injection A as <-. rewrite Hr in B. injection B as <-.
      unfold try_cluster in C. destruct (cluster e) as [e2|] eqn:Ec; [|discriminate]. injection C as <-.
      pose proof (convert_one _ _ _ _ _ Hm _ _ Hr) as H1. destruct X as [_ ->]. cbn [ev_weights]. rewrite (Hcluster _ _ Ec). split; [reflexivity|]. split; [|exact H1].
      unfold keeps_particles. rewrite Ec. reflexivity. }
  clear -H. induction H as [|e e0 evs evs0 (H1 & H2 & H3) _ (I1 & I2 & I3)]; [repeat split; constructor|].
  cbn [map filter]. rewrite H1, H2, I1. split; [reflexivity|]. split; [|constructor; assumption].
  destruct (negb (keeps_particles cluster e)); cbn [map]; rewrite I2; [rewrite H1|]; reflexivity.
Qed.
End Total.
