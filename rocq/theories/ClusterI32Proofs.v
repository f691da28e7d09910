(** Clustering with 32 bit ids and the checks of debug builds *)
From Coq Require Import ZArith Lia Sorted.
From Verif Require Import Base BaseProofs Num ModelEvent SpecEvent EventProofs ModelCluster SpecCluster ClusterProofs ModelClusterI32 SpecClusterI32.
Set Implicit Arguments.

Lemma i32_abs_ok checks id : id <> i32_min -> i32_abs checks id = Some (Z.abs id).
Proof. intros H. unfold i32_abs. destruct (Z.eqb_spec id i32_min); [contradiction|reflexivity]. Qed.
Lemma abs_not_min id : Z.abs id <> i32_min.
Proof. unfold i32_min. lia. Qed.

Lemma ofold_some A S (f : S -> A -> option S) (g : S -> A -> S) l : (forall s a, In a l -> f s a = Some (g s a)) -> forall s, ofold f l s = Some (fold_left g l s).
Proof.
  induction l as [|a l IH]; intros H s; [reflexivity|]. cbn [ofold fold_left]. rewrite H by (left; reflexivity). apply IH. intros s' b Hb. apply H. right. exact Hb.
Qed.
Lemma ofold_none A S (f : S -> A -> option S) a l : (forall s, f s a = None) -> In a l -> forall s, ofold f l s = None.
Proof.
  intros H. induction l as [|b l IH]; intros Hin s; [contradiction|]. cbn [ofold]. destruct Hin as [->|Hin]; [rewrite H; reflexivity|].
  destruct (f s b); [apply IH; exact Hin|reflexivity].
Qed.

Section Same.
Context (N : NumOps) (checks : bool) (neutrino hadron : Z -> bool) (delta_r : PseudoJet N -> PseudoJet N -> N)
  (cluster_if : JetAlgorithm -> N -> (PseudoJet N -> bool) -> list (PseudoJet N) -> list (PseudoJet N)) (c : DefaultClustering N).
Notation groups := (list (Z * list (FourVector N))).

Lemma cone_ok radius p (out : groups) : Forall (fun g => fst g <> i32_min) out ->
  cone_i32 checks neutrino delta_r radius p out = Some (cone_momentum neutrino delta_r radius p out).
Proof.
  intros H. unfold cone_i32, cone_momentum. apply ofold_some. intros s [id ps] Hin. rewrite Forall_forall in H. rewrite i32_abs_ok by exact (H _ Hin). reflexivity.
Qed.
Lemma other_ok s g : fst g <> i32_min -> treat_other_i32 checks neutrino hadron c s g = Some (treat_other neutrino hadron c s g).
Proof.
  destruct g as [id out]. cbn [fst]. intros H. unfold treat_other_i32, treat_other, to_jet_i32, is_parton_i32, is_hadron_i32, is_clustered_to_lepton_i32, kept_i32.
  rewrite !i32_abs_ok by exact H. rewrite i32_abs_ok by apply abs_not_min. unfold is_parton, is_hadron, is_clustered_to_lepton.
  destruct ((Z.abs id <=? bottom)%Z || (id =? gluon)%Z); [reflexivity|]. cbn [orb]. rewrite Z.abs_involutive. destruct (hadron (Z.abs id)); [reflexivity|].
  destruct (cl_lepton c); cbn [is_some andb].
  - destruct (is_light_lepton (Z.abs id) || is_photon id); [reflexivity|]. destruct (cl_neutrinos c); [reflexivity|]. cbn [orb]. destruct (negb (neutrino (Z.abs id))); reflexivity.
  - destruct (cl_neutrinos c); [reflexivity|]. cbn [orb]. destruct (negb (neutrino (Z.abs id))); reflexivity.
Qed.
Lemma other_min s out : checks = true -> treat_other_i32 checks neutrino hadron c s (i32_min, out) = None.
Proof. intros ->. reflexivity. Qed.

Lemma isolated_ok p (out : groups) : Forall (fun g => fst g <> i32_min) out ->
  (checks = true -> ~ undefined_cone neutrino delta_r c (particles_of out) p) ->
  is_isolated_i32 checks neutrino delta_r c p out = Some (is_isolated neutrino delta_r c p out).
Proof.
  intros H HN. unfold is_isolated_i32, is_isolated. destruct (cl_photon c) as [d|] eqn:Ed; [|reflexivity].
  destruct (nltb (fv_pt p) (pd_min_pt d)) eqn:El; [reflexivity|]. rewrite cone_ok by exact H. unfold checked_sqrt. cbv zeta.
  match goal with |- context [checks && negb ?b] => destruct (checks && negb b) eqn:E end; [|reflexivity].
  exfalso. apply andb_prop in E as [Ec E]. apply HN; [exact Ec|]. exists d. split; [exact Ed|]. split; [exact El|].
  unfold transverse_energy. rewrite <- cone_total. apply Bool.negb_true_iff in E. exact E.
Qed.
Lemma isolated_nan p (out : groups) : checks = true -> Forall (fun g => fst g <> i32_min) out -> undefined_cone neutrino delta_r c (particles_of out) p ->
  is_isolated_i32 checks neutrino delta_r c p out = None.
Proof.
  intros Hc H (d & Ed & El & E). unfold is_isolated_i32. rewrite Ed, El, cone_ok by exact H. unfold checked_sqrt. cbv zeta.
  unfold transverse_energy in E. rewrite <- cone_total in E. rewrite E, Hc. reflexivity.
Qed.

Definition all_ordinary (out : groups) : Prop := Forall (fun g => fst g <> i32_min) out.

(** where the photons are *)
Lemma photon_group (out : groups) : StronglySorted (fun g h => (fst h < fst g)%Z) out ->
  match binary_search_by (fun p => Z.compare photon (fst p)) out with
  | Some i => exists ps rest, nth_error out i = Some (22%Z, ps) /\ swap_remove i out = Some rest /\ Permutation out ((22%Z, ps) :: rest) /\
      forall p, In (22%Z, p) (particles_of out) <-> In p ps
  | None => forall p, ~ In (22%Z, p) (particles_of out)
  end.
Proof.
  intros Hs. set (cmp := fun p : Z * list (FourVector N) => Z.compare photon (fst p)).
  assert (B : match binary_search_by cmp out with
  | Some i => exists x, nth_error out i = Some x /\ cmp x = Eq
  | None => forall x, In x out -> cmp x <> Eq
  end).
  { apply binary_search_spec. intros i j x y Hij Hi Hj Hx. pose proof (SS_nth Hs Hij Hi Hj) as H. cbv beta in H. unfold cmp in *.
    apply Z.compare_gt_iff. destruct (Z.compare_spec photon (fst x)); try congruence; lia. }
  assert (HI : forall id p, In (id, p) (particles_of out) <-> exists ps, In (id, ps) out /\ In p ps).
  { intros id p. unfold particles_of. rewrite in_flat_map. split.
    - intros ([id' ps] & H1 & H2). apply in_map_iff in H2 as (q & E & H2). cbn [fst snd] in *. injection E as <- <-. eauto.
    - intros (ps & H1 & H2). exists (id, ps). split; [exact H1|]. apply in_map_iff. eauto. }
  destruct (binary_search_by cmp out) as [i|].
  - destruct B as ([id ps] & Hi & Hx). unfold cmp in Hx. cbn [fst] in Hx. apply Z.compare_eq in Hx. unfold photon in Hx. subst id.
    destruct (swap_remove_some out (i := i)) as [rest Hr]; [apply nth_error_Some; congruence|].
    destruct (swap_remove_perm _ _ Hr) as (x & Hx & Hp). rewrite Hi in Hx. injection Hx as <-.
    exists ps, rest. split; [exact Hi|]. split; [exact Hr|]. split; [exact Hp|]. intros p. rewrite HI. split; [|intros H; exists ps; split; [eapply nth_error_In; exact Hi|exact H]].
    intros (ps' & H1 & H2). apply In_nth_error in H1 as [j Hj].
    destruct (Nat.lt_trichotomy i j) as [L|[->|L]].
    + pose proof (SS_nth Hs L Hi Hj) as H. cbn [fst] in H. lia.
    + rewrite Hi in Hj. injection Hj as <-. exact H2.
    + pose proof (SS_nth Hs L Hj Hi) as H. cbn [fst] in H. lia.
  - intros p Hp. apply HI in Hp as (ps & H1 & _). apply (B _ H1). reflexivity.
Qed.

Lemma cluster_same mw sort (ev : Event N) : StronglySorted (fun g h => (fst h < fst g)%Z) (ev_out ev) -> all_ordinary (ev_out ev) ->
  (checks = true -> forall p, In (22%Z, p) (particles_of (ev_out ev)) -> ~ undefined_cone neutrino delta_r c (particles_of (ev_out ev)) p) ->
  default_cluster_i32 checks neutrino hadron delta_r cluster_if mw sort c ev = default_cluster neutrino hadron delta_r cluster_if mw sort c ev.
Proof.
  intros Hs Ho HN. unfold default_cluster_i32, default_cluster, split_photons_i32, split_photons.
  pose proof (photon_group Hs) as P. destruct (binary_search_by (fun p => Z.compare photon (fst p)) (ev_out ev)) as [i|].
  - destruct P as (ps & rest & Hi & Hr & Hp & HI). rewrite Hi, Hr.
    rewrite (ofold_some _ (treat_photon neutrino delta_r c (ev_out ev))).
    + rewrite (ofold_some _ (treat_other neutrino hadron c)); [reflexivity|]. intros s g Hin. apply other_ok.
      unfold all_ordinary in Ho. rewrite Forall_forall in Ho. apply Ho. eapply Permutation_in; [apply Permutation_sym; exact Hp|right; exact Hin].
    + intros s p Hin. unfold treat_photon_i32, treat_photon. rewrite isolated_ok; [|exact Ho|intros Hc; apply HN; [exact Hc|apply HI; exact Hin]].
      destruct (is_isolated neutrino delta_r c p (ev_out ev)); reflexivity.
  - rewrite (ofold_some _ (treat_other neutrino hadron c)); [reflexivity|]. intros s g Hin. apply other_ok.
    unfold all_ordinary in Ho. rewrite Forall_forall in Ho. apply Ho. exact Hin.
Qed.
Lemma cluster_min mw sort (ev : Event N) : checks = true -> StronglySorted (fun g h => (fst h < fst g)%Z) (ev_out ev) -> (exists ps, In (i32_min, ps) (ev_out ev)) ->
  default_cluster_i32 checks neutrino hadron delta_r cluster_if mw sort c ev = None.
Proof.
  intros Hc Hs (qs & Hq). unfold default_cluster_i32. destruct (split_photons_i32 checks neutrino delta_r mw c (ev_out ev)) as [[s rest]|] eqn:E; [|reflexivity].
  assert (Hin : In (i32_min, qs) rest).
  { unfold split_photons_i32 in E. pose proof (photon_group Hs) as P. destruct (binary_search_by (fun p => Z.compare photon (fst p)) (ev_out ev)) as [i|].
    - destruct P as (ps & rest' & Hi & Hr & Hp & _). rewrite Hi, Hr in E. destruct (ofold _ ps _); [|discriminate]. injection E as _ <-.
      apply (Permutation_in _ Hp) in Hq as [Hq|Hq]; [discriminate|exact Hq].
    - injection E as _ <-. exact Hq. }
  rewrite (ofold_none _ (i32_min, qs)); [reflexivity| |exact Hin]. intros s'. apply other_min. exact Hc.
Qed.
Lemma cluster_nan mw sort (ev : Event N) p : checks = true -> StronglySorted (fun g h => (fst h < fst g)%Z) (ev_out ev) -> all_ordinary (ev_out ev) ->
  In (22%Z, p) (particles_of (ev_out ev)) -> undefined_cone neutrino delta_r c (particles_of (ev_out ev)) p ->
  default_cluster_i32 checks neutrino hadron delta_r cluster_if mw sort c ev = None.
Proof.
  intros Hc Hs Ho Hin HU. unfold default_cluster_i32, split_photons_i32. pose proof (photon_group Hs) as P.
  destruct (binary_search_by (fun p => Z.compare photon (fst p)) (ev_out ev)) as [i|]; [|exfalso; eapply P; exact Hin].
  destruct P as (ps & rest & Hi & Hr & Hp & HI). rewrite Hi, Hr. rewrite (ofold_none _ p); [reflexivity| |apply HI; exact Hin].
  intros s. unfold treat_photon_i32. rewrite isolated_nan by assumption. reflexivity.
Qed.
End Same.

(** *** without checks: the smallest id is treated like that of a quark *)
Lemma set_nth_map A B (f : A -> B) l : forall i x, set_nth i (f x) (map f l) = option_map (map f) (set_nth i x l).
Proof. induction l as [|a l IH]; intros [|i] x; cbn; try reflexivity. rewrite IH. destruct (set_nth i x l); reflexivity. Qed.
Lemma nth_error_map' A B (f : A -> B) l i : nth_error (map f l) i = option_map f (nth_error l i).
Proof. revert i. induction l as [|a l IH]; intros [|i]; cbn; auto. Qed.
Lemma swap_remove_map A B (f : A -> B) i l : swap_remove i (map f l) = option_map (map f) (swap_remove i l).
Proof.
  unfold swap_remove. rewrite !nth_error_map', map_length. destruct (nth_error l i); [|reflexivity]. cbn [option_map].
  destruct (nth_error l (length l - 1)) as [x|]; [|reflexivity]. cbn [option_map]. destruct (Nat.eqb i (length l - 1)); [cbn [option_map]; rewrite firstn_map; reflexivity|].
  rewrite firstn_map, set_nth_map. reflexivity.
Qed.
Lemma bsearch_map A B (f : A -> B) (cmp : B -> comparison) (cmp' : A -> comparison) l : (forall a, cmp (f a) = cmp' a) ->
  binary_search_by cmp (map f l) = binary_search_by cmp' l.
Proof.
  intros H. unfold binary_search_by. rewrite map_length.
  assert (L : forall fuel base size, bsearch_loop fuel cmp (map f l) base size = bsearch_loop fuel cmp' l base size).
  { induction fuel as [|fuel IH]; intros base size; [reflexivity|]. cbn [bsearch_loop]. destruct (size <=? 1); [reflexivity|]. cbv zeta.
    rewrite nth_error_map'. destruct (nth_error l (base + size / 2)) as [x|]; [|reflexivity]. cbn [option_map]. rewrite H, IH. reflexivity. }
  rewrite L, nth_error_map'. destruct (nth_error l _) as [x|]; [|reflexivity]. cbn [option_map]. rewrite H. reflexivity.
Qed.

Lemma as_quark_eq (N : NumOps) g : @as_quark N g = if Z.eqb (fst g) i32_min then ((-1)%Z, snd g) else g.
Proof. reflexivity. Qed.
Section Wrap.
Context (N : NumOps) (neutrino hadron : Z -> bool) (delta_r : PseudoJet N -> PseudoJet N -> N)
  (cluster_if : JetAlgorithm -> N -> (PseudoJet N -> bool) -> list (PseudoJet N) -> list (PseudoJet N)) (c : DefaultClustering N).
Context (Hn1 : neutrino i32_min = false) (Hn2 : neutrino 1%Z = false).
Notation relabel := (@as_quark N).

Lemma relabel_snd g : snd (relabel g) = snd g.
Proof. rewrite as_quark_eq. destruct (Z.eqb (fst g) i32_min); reflexivity. Qed.
Lemma cone_wrap radius p out : cone_i32 false neutrino delta_r radius p out = Some (cone_momentum neutrino delta_r radius p (map relabel out)).
Proof.
  unfold cone_i32, cone_momentum. generalize (@pj_new N). induction out as [|[id ps] out IH]; intros acc; [reflexivity|]. cbn [ofold map fold_left].
  rewrite as_quark_eq. cbn [fst snd]. destruct (Z.eqb_spec id i32_min) as [->|H].
  - unfold i32_abs. rewrite Z.eqb_refl, Hn1. cbn [negb is_muon andb]. change (Z.abs (-1)) with 1%Z. rewrite Hn2. cbn [negb andb is_muon]. exact (IH _).
  - rewrite i32_abs_ok by exact H. exact (IH _).
Qed.
Lemma other_wrap s g : treat_other_i32 false neutrino hadron c s g = Some (treat_other neutrino hadron c s (relabel g)).
Proof.
  rewrite as_quark_eq. destruct g as [id out]. cbn [fst snd]. destruct (Z.eqb_spec id i32_min) as [->|H]; [reflexivity|]. apply other_ok. exact H.
Qed.
Lemma photon_wrap out s p : treat_photon_i32 false neutrino delta_r c out s p = Some (treat_photon neutrino delta_r c (map relabel out) s p).
Proof.
  unfold treat_photon_i32, treat_photon. replace (is_isolated_i32 false neutrino delta_r c p out) with (Some (is_isolated neutrino delta_r c p (map relabel out))).
  - destruct (is_isolated neutrino delta_r c p (map relabel out)); reflexivity.
  - unfold is_isolated, is_isolated_i32. destruct (cl_photon c) as [d|]; [|reflexivity]. destruct (nltb (fv_pt p) (pd_min_pt d)); [reflexivity|]. rewrite cone_wrap. reflexivity.
Qed.
Lemma cluster_wrap mw sort (ev : Event N) :
  default_cluster_i32 false neutrino hadron delta_r cluster_if mw sort c ev =
  default_cluster neutrino hadron delta_r cluster_if mw sort c (mkEvent (ev_id ev) (ev_weights ev) (map relabel (ev_out ev))).
Proof.
  unfold default_cluster_i32, default_cluster, split_photons_i32, split_photons. cbn [ev_out ev_id ev_weights].
  rewrite (bsearch_map relabel _ (fun p => Z.compare photon (fst p))).
  2:{ intros g. rewrite as_quark_eq. destruct (Z.eqb_spec (fst g) i32_min) as [->|_]; reflexivity. }
  assert (F : forall l s, ofold (treat_other_i32 false neutrino hadron c) l s = Some (fold_left (treat_other neutrino hadron c) (map relabel l) s)).
  { induction l as [|g l IH]; intros s; [reflexivity|]. cbn [ofold map fold_left]. rewrite other_wrap. apply IH. }
  destruct (binary_search_by (fun p => Z.compare photon (fst p)) (ev_out ev)) as [i|].
  - rewrite nth_error_map', swap_remove_map. destruct (nth_error (ev_out ev) i) as [[id ps]|]; [|reflexivity]. cbn [option_map].
    destruct (swap_remove i (ev_out ev)) as [rest|]; cbn [option_map]; [|destruct (relabel (id, ps)); reflexivity].
    rewrite (ofold_some _ (treat_photon neutrino delta_r c (map relabel (ev_out ev)))) by (intros; apply photon_wrap). rewrite F.
    pose proof (relabel_snd (id, ps)) as Hsnd. destruct (relabel (id, ps)) as [id' ps']. cbn [snd] in Hsnd. subst ps'. reflexivity.
  - rewrite F. reflexivity.
Qed.
End Wrap.
