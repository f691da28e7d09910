(** C97: parts of a sample that are far from each other. *)
From Coq Require Import NArith ZArith Reals Lra Permutation.
From Verif Require Import Base BaseProofs Num ModelEvent ModelCell ModelSeeds ModelNaive ModelVPTree ModelDistance ModelResampler SpecWeights SpecSearch SpecTree SpecEvent SpecDistance SpecOrder SpecRegion
  NaiveProofs CellProofs RunProofs SeedsProofs OrderProofs SeparatedProofs TextExamples ProgramProofs PropsNaive PropsRun PropsOrder PropsSymmetry RegionProofs RegionProofs2.
From Coq Require Import Lia List.
Import ListNotations.

(** C97.  A part of the sample whose events are farther than the maximum cell size from all other events can be resampled alone: its events
    get the weights they get in a run on the whole sample, and its cells are the cells of the whole run that start in the part.
    In any arithmetic; there must be no ties, as the outcome depends on how they are broken (C68). *)
Theorem C97_run : forall (N : NumOps) (D : N -> Prop) mw sort strategy (algo algo' : search_algo N) dist max (inside : Event N -> bool) (evs r : list (Event N)) cs,
  sort_ok sort -> order_on N D -> (forall e w, In e evs -> In w (ev_weights e) -> D w) ->
  (forall e w, inside (mkEvent (ev_id e) w (ev_out e)) = inside e) ->
  isolated inside dist max evs -> no_ties dist evs -> (strategy = Next \/ no_equal_negative evs) ->
  let evs' := filter inside evs in
  answers (length evs) (dist_wrapper dist evs) max (algo (length evs) (dist_wrapper dist evs) max) ->
  answers (length evs') (dist_wrapper dist evs') max (algo' (length evs') (dist_wrapper dist evs') max) ->
  resampler_resample mw sort strategy algo dist max evs = Some (r, cs) ->
  exists cs', resampler_resample mw sort strategy algo' dist max evs' = Some (filter inside r, cs') /\
    let cells := filter (fun c => starts_inside inside evs (members c)) cs in
    map (fun c => picked evs' (members c)) cs' = map (fun c => picked evs (members c)) cells /\
    map weight_sum cs' = map weight_sum cells /\ map radius cs' = map radius cells.
Proof.
  intros N D mw sort strategy algo algo' dist max inside evs r cs Hsort Hord HD Hig Hiso Hties Hneg evs' Ha Ha' H.
  destruct (embed (map inside evs)) as (f & Hf & Hemb & Hsurj). pose proof (Hemb _ inside evs eq_refl) as He.
  set (isin := fun t => match nth_error evs t with Some e => inside e | None => false end).
  assert (Hout : forall t, isin t = true -> exists i, f i = t).
  { intros t Ht. apply Hsurj. rewrite nth_error_map. unfold isin in Ht. destruct (nth_error evs t); [cbn; congruence|discriminate]. }
  assert (Hlt : forall i, f i < length evs <-> i < length evs') by (intros i; rewrite <- !nth_error_Some, He; reflexivity).
  assert (Hin : forall i, f i < length evs -> isin (f i) = true).
  { intros i Hi. unfold isin. rewrite He. apply Hlt in Hi. destruct (nth_error (filter inside evs) i) as [e|] eqn:E; [|apply nth_error_None in E; unfold evs' in Hi; lia]. apply nth_error_In, filter_In in E. apply E. }
  assert (Hw : part N f (map ev_weights evs') (map ev_weights evs)) by (intros i; rewrite !nth_error_map, He; reflexivity).
  unfold resampler_resample in *. cbv zeta in *. destruct (select_seeds sort strategy (map ev_weights evs)) as [seeds|] eqn:Es; [|discriminate].
  destruct (region_select N f Hf D sort strategy (map ev_weights evs) (map ev_weights evs') isin seeds Hsort Hord) as (seeds' & Es' & Fs); auto.
  { intros i w (o & E). rewrite nth_error_map in E. destruct (nth_error evs i) as [e|] eqn:Ee; [|discriminate]. injection E as E. apply (HD e); [eapply nth_error_In; exact Ee|rewrite E; left; reflexivity]. }
  { intros i Hi. rewrite map_length in Hi. apply Hin, Hlt, Hi. }
  { destruct Hneg as [->|Hneg]; [left; reflexivity|right]. intros i j v w (o & Ei) (o' & Ej). rewrite nth_error_map in Ei, Ej. destruct (nth_error evs i) as [a|] eqn:Ea; [|discriminate]. destruct (nth_error evs j) as [b|] eqn:Eb; [|discriminate].
    injection Ei as Ei. injection Ej as Ej. apply (Hneg i j a b v w Ea Eb); [rewrite Ei|rewrite Ej]; reflexivity. }
  rewrite Es'. unfold resample_seeds in *. match type of H with context [ofold ?g ?s ?x] => destruct (ofold g s x) as [[U1 cs1]|] eqn:E; [|discriminate H] end. injection H as <- <-.
  destruct (region_seeds N f Hf (length evs) isin Hin mw (algo' (length evs') (dist_wrapper dist evs') max) (algo (length evs) (dist_wrapper dist evs) max)
    seeds seeds' (map ev_weights evs', []) (map ev_weights evs, []) (U1, cs1)) as ([A1 cs1'] & E' & M1 & M2 & M3); auto.
  { apply Forall_forall. intros t Ht. assert (HDc : forall i w, central_weight (map ev_weights evs) i w -> D w).
    { intros i w (o & Ei). rewrite nth_error_map in Ei. destruct (nth_error evs i) as [e|] eqn:Ee; [|discriminate]. injection Ei as Ei. apply (HD e); [eapply nth_error_In; exact Ee|rewrite Ei; left; reflexivity]. }
    destruct (C12_select_seeds N sort D strategy _ seeds Hsort Hord HDc Es) as (_ & I1 & _). apply I1 in Ht as (w & (o & Et) & _). rewrite <- (map_length ev_weights). apply nth_error_Some. congruence. }
  { split; [exact Hw|]. cbn [fst snd]. split; [apply map_length|reflexivity]. }
  { intros s Hs. pose proof (proj1 (Hlt s) Hs) as Hs'. destruct (Ha (f s) Hs) as (l & E1 & L1). destruct (Ha' s Hs') as (l' & E2 & L2). exists l'. split; [exact E2|]. rewrite E1. f_equal.
    refine (region_nearest N f Hf (length evs) (length evs') (dist_wrapper dist evs) (dist_wrapper dist evs') isin max s l l' Hlt Hout _ Hs' _ _ L1 L2).
    - intros i j Hi Hj. unfold dist_wrapper, evs'. rewrite <- !He. reflexivity.
    - intros i j Hi Hj Hiq Hjq. unfold dist_wrapper, evs'. rewrite <- !He. intros G1 G2. apply Hlt in Hi, Hj.
      destruct (nth_error evs (f i)) as [b|] eqn:Eb; [|apply nth_error_None in Eb; lia]. destruct (nth_error evs (f j)) as [c|] eqn:Ec; [|apply nth_error_None in Ec; lia]. destruct (nth_error evs (f s)) as [a|] eqn:Ea; [|apply nth_error_None in Ea; lia].
      apply (f_eq f Hf). apply (Hties (f s) (f i) (f j) a b c); auto; intros G; apply (f_eq f Hf) in G; congruence.
    - intros t Ht Ho. unfold dist_wrapper. specialize (Hin s Hs). unfold isin in Ho, Hin. destruct (nth_error evs t) as [b|] eqn:Eb; [|apply nth_error_None in Eb; lia]. destruct (nth_error evs (f s)) as [a|] eqn:Ea; [|discriminate].
      apply (Hiso a b); eauto using nth_error_In. }
  { intros t Ht Ho l El. destruct (Ha t Ht) as (l' & E1 & (_ & I1 & _)). rewrite El in E1. injection E1 as <-. apply Forall_forall. intros [i d] Hi. cbn [fst].
    pose proof (proj1 (I1 i) (in_map fst _ _ Hi)) as (Hi1 & _ & Hi3). destruct (isin i) eqn:Ei; [|reflexivity]. exfalso. unfold dist_wrapper in Hi3. unfold isin in Ei, Ho.
    destruct (nth_error evs i) as [a|] eqn:Ea; [|discriminate]. destruct (nth_error evs t) as [b|] eqn:Eb; [|apply nth_error_None in Eb; lia].
    destruct (Hiso a b) as [G _]; eauto using nth_error_In. congruence. }
  cbn [fst snd] in *. exists cs1'. match goal with |- match ?o with _ => _ end = _ /\ _ => assert (E2 : o = Some (A1, cs1')) by exact E'; rewrite E2 end. split; [|split; [|split]].
  - f_equal. f_equal. assert (LU : length U1 = length evs) by exact M2. pose proof (Hemb _ inside (with_weights evs U1)) as Hr.
    assert (Hc : forall (X Y : Type) (l : list X) (k : list Y) i, nth_error (combine l k) i = match nth_error l i, nth_error k i with Some a, Some b => Some (a, b) | _, _ => None end).
    { clear. intros X Y l. induction l as [|a l IH]; intros [|b k] [|i]; try reflexivity; cbn; [destruct (nth_error l i); reflexivity|apply IH]. }
    apply nth_error_ext. intros i. rewrite <- Hr; [unfold with_weights; rewrite !nth_error_map, !Hc, He, M1; reflexivity|].
    clear -LU Hig. unfold with_weights. revert U1 LU. induction evs as [|e evs IH]; intros [|w U1] LU; try discriminate; [reflexivity|]. cbn [combine map]. rewrite Hig. f_equal. apply IH. injection LU as LU. exact LU.
  - change (filter (fun c => starts_inside inside evs (members c)) cs1) with (filter (cell_inside N isin) cs1). rewrite M3, map_map. apply map_ext. intros c. unfold picked, moved_cell. cbn [members]. rewrite map_map. apply map_ext. intros i. symmetry. apply He.
  - change (filter (fun c => starts_inside inside evs (members c)) cs1) with (filter (cell_inside N isin) cs1). rewrite M3, map_map. reflexivity.
  - change (filter (fun c => starts_inside inside evs (members c)) cs1) with (filter (cell_inside N isin) cs1). rewrite M3, map_map. reflexivity.
Qed.
Print Assumptions C97_run.

(** In particular with the default distance and the searches of the program, in exact arithmetic. *)
Theorem C97_default : forall sort (km : assignment RN) tau mw strategy (algo algo' : search_algo RN) max (inside : Event RN -> bool) (events : list (list (Z * FourVector RN) * list RN)) r cs,
  sort_ok sort -> km_ok km -> Forall (fun e => phys (fst e)) events -> a_search sort algo -> a_search sort algo' -> (N.of_nat (length events) <= usize_max)%N ->
  let dist a b := match distance (N := RN) sort km tau a b with Some d => d | None => 0%R end in
  let evs := map (fun e => build sort (made (N := RN) mw (fst e) (snd e))) events in
  (forall e w, inside (mkEvent (ev_id e) w (ev_out e)) = inside e) ->
  isolated inside dist max evs -> no_ties dist evs -> (strategy = Next \/ no_equal_negative evs) ->
  resampler_resample mw sort strategy algo dist max evs = Some (r, cs) ->
  exists cs', resampler_resample mw sort strategy algo' dist max (filter inside evs) = Some (filter inside r, cs') /\
    let cells := filter (fun c => starts_inside inside evs (members c)) cs in
    map (fun c => picked (filter inside evs) (members c)) cs' = map (fun c => picked evs (members c)) cells /\
    map weight_sum cs' = map weight_sum cells /\ map radius cs' = map radius cells.
Proof.
  intros sort km tau mw strategy algo algo' max inside events r cs Hs Hkm Hp Ha Ha' Hn dist evs Hig Hiso Ht Hneg H.
  assert (B : Forall (built sort) evs).
  { unfold evs. apply Forall_forall. intros x Hx. apply in_map_iff in Hx as (e & <- & He). rewrite Forall_forall in Hp. apply (ev_of_built sort mw). apply Hp. exact He. }
  assert (L : length evs = length events) by (unfold evs; apply map_length).
  assert (L' : length (filter inside evs) <= length evs) by (clear; induction evs as [|e evs IH]; cbn; [lia|destruct (inside e); cbn; lia]).
  apply (C97_run RN (fun _ => True) mw sort strategy algo algo' dist max inside evs r cs); auto using RN_order.
  - apply (search_answers sort km tau algo max evs Hs Hkm Ha B). rewrite L. exact Hn.
  - apply (search_answers sort km tau algo' max (filter inside evs) Hs Hkm Ha'); [|lia]. apply Forall_forall. intros x Hx. apply filter_In in Hx as [Hx _]. rewrite Forall_forall in B. auto.
Qed.
Print Assumptions C97_default.

(** A case: two groups of events on a line, interleaved in the sample *)
Lemma ZN_order : order_on ZN (fun _ => True).
Proof. split; [split|]; cbn; intros; rewrite ?Z.leb_le in *; try lia. Qed.
Definition groups : list (Event ZN) := [zev (-2) 0; zev (-6) 100; zev 5 1; zev 9 103; zev 4 (-3)]%Z.
Definition on_the_left (e : Event ZN) : bool := match ev_out e with [(_, [p])] => (fv_z p <? 50)%Z | _ => false end.
Example C97_case :
  (forall e w, on_the_left (mkEvent (ev_id e) w (ev_out e)) = on_the_left e) /\ isolated on_the_left zev_dist (10%Z : ZN) groups /\ no_ties zev_dist groups /\ no_equal_negative groups /\
  (forall l : list (Event ZN), answers (length l) (dist_wrapper zev_dist l) (10%Z : ZN) (naive_nearest (N := ZN) first_min (length l) (dist_wrapper zev_dist l) 10%Z)) /\
  option_map (fun x => (map ev_weights (fst x), map members (snd x))) (resampler_resample (N := ZN) false isort MostNegative (naive_nearest first_min) zev_dist 10%Z groups) =
    Some ([[1]; [1]; [1]; [1]; [4]]%Z, [[1; 3]; [0; 2]]) /\
  option_map (fun x => (map ev_weights (fst x), map members (snd x))) (resampler_resample (N := ZN) false isort MostNegative (naive_nearest first_min) zev_dist 10%Z (filter on_the_left groups)) =
    Some ([[1]; [1]; [4]]%Z, [[0; 1]]).
Proof.
  split; [reflexivity|]. split; [|split; [|split; [|split; [|split; vm_compute; reflexivity]]]].
  - intros a b Ha Hb. cbn in Ha, Hb. repeat (destruct Ha as [<-|Ha]; [repeat (destruct Hb as [<-|Hb]; [cbn; intros; try discriminate; split; reflexivity|]); contradiction|]). contradiction.
  - intros q i j a b c Hi Hj Hq Hb Hc. destruct q as [|[|[|[|[|q]]]]]; destruct i as [|[|[|[|[|i]]]]]; destruct j as [|[|[|[|[|j]]]]]; cbn in Hq, Hb, Hc; try congruence;
      try (destruct q; discriminate); try (destruct i; discriminate); try (destruct j; discriminate);
      injection Hq as <-; injection Hb as <-; injection Hc as <-; cbn; intros; try discriminate; try reflexivity.
  - intros i j a b v w Ha Hb. destruct i as [|[|[|[|[|i]]]]]; destruct j as [|[|[|[|[|j]]]]]; cbn in Ha, Hb; try reflexivity;
      try (destruct i; discriminate); try (destruct j; discriminate);
      injection Ha as <-; injection Hb as <-; cbn; intros H1 H2; injection H1 as <-; injection H2 as <-; cbn; intros; discriminate.
  - intros l q Hq. apply (C14_naive_exact ZN (fun _ => True) ZN_order); auto. exact first_min_ok.
Qed.

(** If the parts touch, as the regions of a partition do (cres-classify-events), then resampling them separately gives something else. *)
Theorem C97_touching_refuted : exists (inside : Event ZN -> bool) (evs r r' : list (Event ZN)) cs cs',
  (forall e w, inside (mkEvent (ev_id e) w (ev_out e)) = inside e) /\ no_ties zev_dist evs /\ no_equal_negative evs /\
  resampler_resample (N := ZN) false isort MostNegative (naive_nearest first_min) zev_dist 10%Z evs = Some (r, cs) /\
  resampler_resample (N := ZN) false isort MostNegative (naive_nearest first_min) zev_dist 10%Z (filter inside evs) = Some (r', cs') /\
  map ev_weights (filter inside r) = [[1%Z : ZN]] /\ map ev_weights r' = [[(-2)%Z : ZN]].
Proof.
  exists on_the_left, [zev (-2) 49; zev 5 51]%Z. do 4 eexists. split; [reflexivity|]. split; [|split; [|split; [vm_compute; reflexivity|split; [vm_compute; reflexivity|split; vm_compute; reflexivity]]]].
  - intros q i j a b c Hi Hj Hq Hb Hc. destruct q as [|[|q]]; destruct i as [|[|i]]; destruct j as [|[|j]]; cbn in Hq, Hb, Hc; try congruence;
      try (destruct q; discriminate); try (destruct i; discriminate); try (destruct j; discriminate).
  - intros i j a b v w Ha Hb. destruct i as [|[|i]]; destruct j as [|[|j]]; cbn in Ha, Hb; try reflexivity;
      try (destruct i; discriminate); try (destruct j; discriminate);
      injection Ha as <-; injection Hb as <-; cbn; intros H1 H2; injection H1 as <-; injection H2 as <-; cbn; intros; discriminate.
Qed.
Print Assumptions C97_touching_refuted.
