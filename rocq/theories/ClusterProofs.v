(** Proofs about clustering. *)
From Coq Require Import ZArith Reals Lra.
From Verif Require Import Base Num BaseProofs ModelEvent SpecEvent EventProofs ModelCluster SpecCluster.

Section Fates.
Context {N : NumOps} (neutrino hadron : Z -> bool) (delta_r : PseudoJet N -> PseudoJet N -> N).
Context (cluster_if : JetAlgorithm -> N -> (PseudoJet N -> bool) -> list (PseudoJet N) -> list (PseudoJet N)).
Context (c : DefaultClustering N).
Notation groups := (list (Z * list (FourVector N))).
Notation fate_of := (fate_of neutrino hadron delta_r c).

Lemma cone_fold radius p ps (acc : PseudoJet N) id :
  negb (neutrino (Z.abs id)) && negb (Z.abs id =? 13)%Z = true ->
  fold_left (cone_step delta_r radius (jet_of_fv p)) ps acc
  = fold_left pj_add (map jet_of_fv (cone neutrino delta_r radius p (map (pair id) ps))) acc.
Proof.
  intros Hid. unfold cone. revert acc. induction ps as [|q t IH]; intros acc; cbn [map fold_left filter]; auto.
  cbn [fst snd]. rewrite Hid. cbn [andb]. rewrite IH. unfold cone_step at 1.
  destruct (nltb _ radius); reflexivity.
Qed.

Lemma cone_none radius p ps id :
  negb (neutrino (Z.abs id)) && negb (Z.abs id =? 13)%Z = false ->
  cone neutrino delta_r radius p (map (pair id) ps) = [].
Proof.
  intros Hid. unfold cone. induction ps as [|q t IH]; cbn [map filter]; auto.
  cbn [fst snd]. rewrite Hid. cbn [andb]. exact IH.
Qed.

Lemma cone_app radius p l1 l2 :
  cone neutrino delta_r radius p (l1 ++ l2) = cone neutrino delta_r radius p l1 ++ cone neutrino delta_r radius p l2.
Proof. unfold cone. rewrite filter_app, map_app. auto. Qed.

Lemma cone_total radius p (out : groups) :
  cone_momentum neutrino delta_r radius (jet_of_fv p) out
  = pj_total (map jet_of_fv (cone neutrino delta_r radius p (particles_of out))).
Proof.
  unfold cone_momentum, pj_total. generalize (@pj_new N). induction out as [|[id ps] t IH]; intros acc; auto.
  cbn [fold_left]. change (particles_of ((id, ps) :: t)) with (map (pair id) ps ++ particles_of t).
  rewrite cone_app, map_app, fold_left_app. unfold is_muon, muon.
  destruct (negb (neutrino (Z.abs id)) && negb (Z.abs id =? 13)%Z) eqn:Hid.
  - rewrite (cone_fold radius p ps acc _ Hid). apply IH.
  - rewrite (cone_none radius p ps _ Hid). apply IH.
Qed.

Lemma isolated_spec p (out : groups) :
  is_isolated neutrino delta_r c p out = isolated_in neutrino delta_r c (particles_of out) p.
Proof.
  unfold is_isolated, isolated_in, photon_cut, transverse_energy. destruct (cl_photon c) as [d|]; auto.
  rewrite cone_total. destruct (nltb (fv_pt p) (pd_min_pt d)); reflexivity.
Qed.

(** What is added to the event for one particle *)
Definition added (particles : list (Z * FourVector N)) (x : Z * FourVector N) : list (Z * FourVector N) :=
  match fate_of particles x with Kept => [x] | Isolated => [(83%Z, snd x)] | _ => [] end.
Definition put (particles : list (Z * FourVector N)) (s : sorted_out N) (l : list (Z * FourVector N)) : sorted_out N :=
  mkSorted (mkBuilder (b_weights (so_ev s)) (b_out (so_ev s) ++ flat_map (added particles) l))
    (so_leptons s ++ momenta (filter (fun x => fate_eqb (fate_of particles x) ToLepton) l))
    (so_jets s ++ momenta (filter (fun x => fate_eqb (fate_of particles x) ToJet) l)).

Lemma put_nil ps s : put ps s [] = s.
Proof. destruct s as [[w o] l j]. unfold put. cbn. rewrite !app_nil_r. auto. Qed.
Lemma put_app ps s l1 l2 : put ps s (l1 ++ l2) = put ps (put ps s l1) l2.
Proof.
  unfold put, momenta. cbn [so_ev so_leptons so_jets b_weights b_out].
  rewrite flat_map_app, !filter_app, !map_app, !app_assoc. reflexivity.
Qed.

Lemma photons_put (out : groups) photons s :
  fold_left (treat_photon neutrino delta_r c out) photons s = put (particles_of out) s (map (pair 22%Z) photons).
Proof.
  revert s. induction photons as [|p t IH]; intros s; cbn [map fold_left]; [symmetry; apply put_nil|].
  change ((22%Z, p) :: map (pair 22%Z) t) with ([(22%Z, p)] ++ map (pair 22%Z) t). rewrite put_app, <- IH. f_equal.
  unfold treat_photon. rewrite isolated_spec. unfold put, added, fate_of, momenta.
  cbn [flat_map filter fst snd]. rewrite Z.eqb_refl. destruct s as [[w o] l j]. cbn [so_ev so_leptons so_jets b_weights b_out].
  destruct (isolated_in neutrino delta_r c (particles_of out) p).
  - cbn. rewrite !app_nil_r. reflexivity.
  - destruct (cl_lepton c); cbn; rewrite ?app_nil_r; reflexivity.
Qed.

Lemma other_put ps s id out : (id <> 22)%Z ->
  treat_other neutrino hadron c s (id, out) = put ps s (map (pair id) out).
Proof.
  intros Hid. unfold treat_other.
  assert (Hf : forall p, fate_of ps (id, p) =
    if is_parton id || is_hadron hadron (Z.abs id) then ToJet
    else if is_clustered_to_lepton c id then ToLepton
    else if cl_neutrinos c || negb (neutrino (Z.abs id)) then Kept else Dropped).
  { intros p. unfold fate_of. cbn [fst snd].
    destruct (Z.eqb_spec id 22) as [->|_]; [congruence|].
    unfold is_parton, bottom, gluon, is_hadron, is_clustered_to_lepton, is_light_lepton, electron, muon, is_photon, photon, is_some.
    rewrite Z.abs_involutive. destruct (Z.eqb_spec id 22) as [->|_]; [congruence|]. rewrite orb_false_r.
    destruct ((Z.abs id <=? 5)%Z || (id =? 21)%Z || hadron (Z.abs id)); auto.
    destruct (cl_lepton c), (Z.abs id =? 11)%Z, (Z.abs id =? 13)%Z, (cl_neutrinos c), (neutrino (Z.abs id)); auto. }
  revert Hf. set (f := if is_parton id || _ then _ else _). intros Hf.
  assert (Hput : put ps s (map (pair id) out) =
    mkSorted (mkBuilder (b_weights (so_ev s)) (b_out (so_ev s) ++ match f with Kept => map (pair id) out | Isolated => map (fun p => (83%Z, p)) out | _ => [] end))
      (so_leptons s ++ match f with ToLepton => map jet_of_fv out | _ => [] end)
      (so_jets s ++ match f with ToJet => map jet_of_fv out | _ => [] end)).
  { unfold put. f_equal; [f_equal|..]; f_equal.
    - induction out as [|p t IH]; cbn [map flat_map]; [destruct f; auto|]. rewrite IH. unfold added at 1.
      rewrite (Hf p). destruct f; reflexivity.
    - induction out as [|p t IH]; cbn [map filter]; [destruct f; auto|]. rewrite (Hf p).
      destruct f; cbn [fate_eqb]; try exact IH. cbn [momenta map snd]. f_equal. exact IH.
    - induction out as [|p t IH]; cbn [map filter]; [destruct f; auto|]. rewrite (Hf p).
      destruct f; cbn [fate_eqb]; try exact IH. cbn [momenta map snd]. f_equal. exact IH. }
  rewrite Hput. subst f. destruct s as [[w o] l j]. cbn [so_ev so_leptons so_jets b_weights b_out].
  destruct (is_parton id || is_hadron hadron (Z.abs id)); [rewrite !app_nil_r; auto|].
  destruct (is_clustered_to_lepton c id); [rewrite !app_nil_r; auto|].
  destruct (cl_neutrinos c || negb (neutrino (Z.abs id))); [|rewrite !app_nil_r; auto].
  rewrite !app_nil_r. f_equal.
  transitivity (fold_left (fun b x => add_outgoing b (fst x) (snd x)) (map (pair id) out) (mkBuilder w o)).
  - clear. generalize (mkBuilder w o). induction out as [|p t IH]; intros b; cbn; auto.
  - apply add_all_out.
Qed.

Lemma others_put ps (rest : groups) s : Forall (fun g => fst g <> 22%Z) rest ->
  fold_left (treat_other neutrino hadron c) rest s = put ps s (particles_of rest).
Proof.
  intros H. revert s. induction H as [|[id out] t Hid _ IH]; intros s; cbn [fold_left].
  - symmetry. apply put_nil.
  - change (particles_of ((id, out) :: t)) with (map (pair id) out ++ particles_of t).
    rewrite put_app, IH. f_equal. apply other_put. exact Hid.
Qed.

Lemma perm_particles A (o o' : list (Z * list A)) : Permutation o o' -> Permutation (particles_of o) (particles_of o').
Proof. apply Permutation_flat_map. Qed.

Lemma flat_map_perm A B (f : A -> list B) l l' : Permutation l l' -> Permutation (flat_map f l) (flat_map f l').
Proof. apply Permutation_flat_map. Qed.

Lemma filter_perm A (f : A -> bool) l l' : Permutation l l' -> Permutation (filter f l) (filter f l').
Proof.
  induction 1 as [|x l l' _ IH|x y l|]; cbn; auto.
  - destruct (f x); auto.
  - destruct (f x), (f y); auto. constructor.
  - etransitivity; eauto.
Qed.

(** Photons first, then everything else: all particles are treated. *)
Lemma sorted_all mw (out : groups) : StronglySorted (@desc N) out ->
  exists s rest l, split_photons neutrino delta_r mw c out = Some (s, rest) /\
    Permutation l (particles_of out) /\
    fold_left (treat_other neutrino hadron c) rest s = put (particles_of out) (mkSorted (builder_new mw) [] []) l.
Proof.
  intros Hs. unfold split_photons.
  set (cmp := fun p : Z * list (FourVector N) => Z.compare photon (fst p)).
  assert (B : match binary_search_by cmp out with
  | Some i => exists x, nth_error out i = Some x /\ cmp x = Eq
  | None => forall x, In x out -> cmp x <> Eq
  end).
  { apply binary_search_spec. intros i j x y Hij Hi Hj Hx. pose proof (SS_nth Hs Hij Hi Hj) as H. unfold desc, cmp in *.
    apply Z.compare_gt_iff. destruct (Z.compare_spec photon (fst x)); try congruence; lia. }
  destruct (binary_search_by cmp out) as [i|].
  - destruct B as ([id photons] & Hi & Hx). unfold cmp in Hx. cbn [fst] in Hx. apply Z.compare_eq in Hx. subst id.
    destruct (swap_remove_some out (i := i)) as [rest Hr]; [apply nth_error_Some; congruence|].
    destruct (swap_remove_perm _ _ Hr) as (x & Hx & Hp). rewrite Hi in Hx. injection Hx as <-.
    rewrite Hi, Hr. eexists _, _, (map (pair 22%Z) photons ++ particles_of rest). split; [reflexivity|]. split.
    + symmetry. etransitivity; [apply perm_particles; exact Hp|]. reflexivity.
    + rewrite put_app, <- photons_put. apply others_put. apply Forall_forall. intros [id ps] Hin. cbn [fst]. intros ->.
      assert (Hnd : NoDup (map fst out)).
      { clear - Hs. induction Hs as [|g t _ IH Hg]; cbn; constructor; auto. rewrite in_map_iff. intros (h & E & Hh).
        rewrite Forall_forall in Hg. specialize (Hg _ Hh). unfold desc in Hg. lia. }
      apply (Permutation_map fst) in Hp. cbn [map fst] in Hp. apply (Permutation_NoDup Hp) in Hnd.
      inversion Hnd; subst. apply H1. apply in_map_iff. exists (22%Z, ps). split; auto.
  - eexists _, _, (particles_of out). split; [reflexivity|]. split; [reflexivity|]. apply others_put.
    apply Forall_forall. intros g Hg E. apply (B g Hg). unfold cmp. rewrite E. reflexivity.
Qed.

Lemma added_perm ps l :
  Permutation (flat_map (added ps) l)
    (filter (fun x => fate_eqb (fate_of ps x) Kept) l ++
     map (fun x => (83%Z, snd x)) (filter (fun x => fate_eqb (fate_of ps x) Isolated) l)).
Proof.
  induction l as [|x t IH]; cbn [flat_map filter map app]; auto. unfold added at 1.
  destruct (fate_of ps x); cbn [fate_eqb map app]; auto.
  apply Permutation_cons_app. exact IH.
Qed.

Lemma add_jets id (js : list (PseudoJet N)) b :
  fold_left (fun b j => add_outgoing b id (fv_of_jet j)) js b
  = mkBuilder (b_weights b) (b_out b ++ map (fun j => (id, fv_of_jet j)) js).
Proof.
  rewrite <- add_all_out. revert b. induction js as [|j t IH]; intros b; cbn; auto.
Qed.
End Fates.

(** ** Sums over the reals *)
Section Sums.
Local Open Scope R_scope.
Context (k : PseudoJet RN -> R) (Hk : component k).

Lemma total_app l1 l2 : total k (l1 ++ l2) = total k l1 + total k l2.
Proof. unfold total. induction l1 as [|a t IH]; cbn in *; [lra|]. rewrite IH. lra. Qed.
Lemma total_cons a l : total k (a :: l) = k a + total k l.
Proof. reflexivity. Qed.
Lemma total_perm l1 l2 : Permutation l1 l2 -> total k l1 = total k l2.
Proof. induction 1; rewrite ?total_cons; try lra. Qed.

Lemma k_add p q : k (pj_add p q) = k p + k q.
Proof. destruct Hk; reflexivity. Qed.
Lemma k_sub p q : k (pj_sub p q) = k p - k q.
Proof. destruct Hk; reflexivity. Qed.
Lemma k_new : k pj_new = 0.
Proof. destruct Hk; reflexivity. Qed.
Lemma k_jet (j : PseudoJet RN) : k (jet_of_fv (fv_of_jet j)) = k j.
Proof. destruct Hk; reflexivity. Qed.

Lemma fold_total l acc : k (fold_left pj_add l acc) = k acc + total k l.
Proof. revert acc. induction l as [|a t IH]; intros acc; cbn [fold_left]; [unfold total; cbn; lra|]. rewrite IH, k_add, total_cons. lra. Qed.
Lemma pj_total_total l : k (pj_total l) = total k l.
Proof. unfold pj_total. rewrite fold_total, k_new. lra. Qed.

Lemma total_concat groups : total k (map pj_total groups) = total k (concat groups).
Proof.
  induction groups as [|g t IH]; [reflexivity|]. cbn [map concat]. rewrite total_cons, total_app, pj_total_total, IH. reflexivity.
Qed.
Lemma total_filter (f : PseudoJet RN -> bool) l :
  total k l = total k (filter f l) + total k (filter (fun x => negb (f x)) l).
Proof.
  induction l as [|a t IH]; cbn [filter]; [unfold total; cbn; lra|]. rewrite total_cons, IH.
  destruct (f a); cbn [negb]; rewrite total_cons; lra.
Qed.
Lemma total_jets id js :
  total k (momenta (map (fun j => (id, fv_of_jet j)) js)) = total k js.
Proof.
  induction js as [|j t IH]; [reflexivity|]. cbn [map momenta] in *. rewrite !total_cons. cbn [snd]. rewrite k_jet.
  f_equal. exact IH.
Qed.

Lemma total_fates (f : Z * FourVector RN -> fate) l :
  total k (momenta l) =
  total k (momenta (filter (fun x => fate_eqb (f x) Kept) l)) + total k (momenta (filter (fun x => fate_eqb (f x) Isolated) l)) +
  total k (momenta (filter (fun x => fate_eqb (f x) ToJet) l)) + total k (momenta (filter (fun x => fate_eqb (f x) ToLepton) l)) +
  total k (momenta (filter (fun x => fate_eqb (f x) Dropped) l)).
Proof.
  induction l as [|x t IH]; [unfold total; cbn; lra|].
  change (momenta (x :: t)) with (jet_of_fv (snd x) :: momenta t). rewrite total_cons, IH.
  cbn [filter]. destruct (f x); cbn [fate_eqb]; unfold momenta; cbn [map]; rewrite ?total_cons; lra.
Qed.
End Sums.

Lemma jets_split cluster_if (HJ : jet_algorithm cluster_if) a r accept l :
  exists soft, Forall (fun j => accept j = false) soft /\
    forall k, component k -> (total k l = total k (cluster_if a r accept l) + total k soft)%R.
Proof.
  destruct (HJ a r accept l) as (groups & Hg & Hc). exists (filter (fun x => negb (accept x)) (map pj_total groups)). split.
  - apply Forall_forall. intros j Hj. apply filter_In in Hj. destruct Hj as [_ Hj]. destruct (accept j); auto; discriminate.
  - intros k Hk. rewrite <- (total_perm k _ _ Hg), <- (total_concat k Hk), (total_filter k accept).
    f_equal. symmetry. apply total_perm. exact Hc.
Qed.

Lemma pj_ext (p q : PseudoJet RN) : (forall k, component k -> k p = k q) -> p = q.
Proof.
  destruct p as [a b e d], q as [a' b' e' d']. intros H.
  pose proof (H _ comp_e). pose proof (H _ comp_x). pose proof (H _ comp_y). pose proof (H _ comp_z). cbn in *. congruence.
Qed.
