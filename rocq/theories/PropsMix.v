(** C96: linear combinations of weights. *)
From Coq Require Import NArith ZArith Reals Lra Lia FunctionalExtensionality.
From Verif Require Import Base BaseProofs Num ModelEvent ModelCell ModelSeeds ModelNaive ModelResampler SpecWeights SpecMix
  SumProofs CellProofs RunProofs RunProofs2 MixProofs.
From Coq Require Import List.
Import ListNotations.
Local Open Scope R_scope.

(** The same event with other weights *)
Definition reweighted (A : list (list R)) (e : Event RN) : Event RN := mkEvent (N := RN) (ev_id e) (mix A (ev_weights e)) (ev_out e).

(** C96.  Auxiliary weights are passive and treated linearly: if every event gets new weights that are linear combinations of the old ones,
    the central weight only being multiplied by a positive factor, then the cells are the same, and the resulting weights are the same
    linear combinations of the resulting weights of the original run. *)
Theorem C96_run : forall mw nw sort strategy (algo : search_algo RN) dist max c A (evs r : list (Event RN)) cs,
  keeps_central c A -> (mw = false -> length A = 1%nat) -> shaped mw nw (map ev_weights evs) ->
  (forall a b a' b', ev_out a = ev_out a' -> ev_out b = ev_out b' -> dist a b = dist a' b') ->
  resampler_resample mw sort strategy algo dist max evs = Some (r, cs) ->
  exists r' cs', resampler_resample mw sort strategy algo dist max (map (reweighted A) evs) = Some (r', cs') /\
    r' = map (reweighted A) r /\ map members cs' = map members cs /\ map weight_sum cs' = map (Rmult c) (map weight_sum cs).
Proof.
  intros mw nw sort strategy algo dist max c A evs r cs (Hc & others & ->) Hm Hw Hd H.
  assert (Hmw : mw = false -> others = []) by (intros E; specialize (Hm E); destruct others; [reflexivity|discriminate]).
  unfold resampler_resample in *. cbv zeta in *.
  assert (W : map ev_weights (map (reweighted ([c] :: others)) evs) = map (mix ([c] :: others)) (map ev_weights evs)) by (rewrite !map_map; reflexivity).
  assert (S : select_seeds (N := RN) sort strategy (map ev_weights (map (reweighted ([c] :: others)) evs)) = select_seeds (N := RN) sort strategy (map ev_weights evs)).
  { etransitivity; [apply f_equal; exact W|]. exact (mix_select mw nw c others Hc Hmw sort strategy _ Hw). }
  rewrite S. destruct (select_seeds (N := RN) sort strategy (map ev_weights evs)) as [seeds|]; [|discriminate].
  assert (D : dist_wrapper (N := RN) dist (map (reweighted ([c] :: others)) evs) = dist_wrapper (N := RN) dist evs).
  { apply functional_extensionality. intros i. apply functional_extensionality. intros j. unfold dist_wrapper. rewrite !nth_error_map.
    destruct (nth_error evs i), (nth_error evs j); cbn [option_map]; try reflexivity. apply Hd; reflexivity. }
  rewrite D, map_length. unfold resample_seeds in *.
  match type of H with context [ofold ?f ?s ?x] => destruct (ofold f s x) as [[ws1 cs1]|] eqn:E; [|discriminate H] end. injection H as <- <-.
  destruct (mix_seeds mw nw c others Hc Hmw (algo (length evs) (dist_wrapper dist evs) max) seeds (map ev_weights evs, []) (map ev_weights (map (reweighted ([c] :: others)) evs), []) (ws1, cs1)) as ([ws2 cs2] & E2 & _ & E3 & F).
  { split; [exact Hw|]. split; [exact W|constructor]. }
  { exact E. }
  cbn [fst snd] in E3, F. exists (with_weights (map (reweighted ([c] :: others)) evs) ws2), cs2. split; [|split; [|split]].
  - match goal with |- match ?o with _ => _ end = _ => assert (E2' : o = Some (ws2, cs2)) by exact E2; rewrite E2' end. reflexivity.
  - rewrite E3. clear. unfold with_weights. revert ws1. induction evs as [|e evs IH]; intros [|w ws]; try reflexivity. cbn [map combine]. f_equal. apply IH.
  - clear -F. induction F as [|a b l l' [Fa Fb] F IH]; [reflexivity|]. cbn [map]. rewrite IH, Fa. reflexivity.
  - clear -F. induction F as [|a b l l' [Fa Fb] F IH]; [reflexivity|]. cbn [map]. rewrite IH, Fb. reflexivity.
Qed.
Print Assumptions C96_run.

(** Hence the overall normalisation of the weights does not matter. *)
Theorem C96_normalisation : forall sort strategy (algo : search_algo RN) dist max c (evs r : list (Event RN)) cs,
  0 < c -> shaped false 1 (map ev_weights evs) ->
  (forall a b a' b', ev_out a = ev_out a' -> ev_out b = ev_out b' -> dist a b = dist a' b') ->
  resampler_resample false sort strategy algo dist max evs = Some (r, cs) ->
  let times (e : Event RN) := mkEvent (N := RN) (ev_id e) (map (Rmult c) (ev_weights e)) (ev_out e) in
  exists cs', resampler_resample false sort strategy algo dist max (map times evs) = Some (map times r, cs') /\ map members cs' = map members cs.
Proof.
  intros sort strategy algo dist max c evs r cs Hc Hw Hd H times.
  destruct (C96_run false 1%nat sort strategy algo dist max c [[c]] evs r cs) as (r' & cs' & E & -> & F & _); try assumption; [split; [exact Hc|]; exists []; reflexivity|reflexivity|].
  assert (G : forall l : list (Event RN), shaped false 1 (map ev_weights l) -> map (reweighted [[c]]) l = map times l).
  { intros l (_ & _ & U). induction l as [|e l IH]; [reflexivity|]. cbn [map] in *. inversion U as [|x y Hx Hy]; subst. rewrite IH by assumption. f_equal. unfold reweighted, times. f_equal.
    destruct (ev_weights e) as [|w [|? ?]]; try discriminate. unfold mix, combination. cbn [map length seq nth]. rewrite Rsum_cons. change (Rsum []) with 0. rewrite Rplus_0_r. reflexivity. }
  rewrite (G evs Hw) in E. exists cs'. split; [|exact F]. rewrite E. f_equal. f_equal. apply G.
  unfold resampler_resample in H. cbv zeta in H. destruct (select_seeds (N := RN) sort strategy (map ev_weights evs)) as [seeds|]; [|discriminate].
  match type of H with context [resample_seeds ?a ?f ?s ?x] => destruct (resample_seeds a f s x) as [[ws1 cs1]|] eqn:E1; [|discriminate H] end. injection H as <- _.
  destruct (resample_seeds_shaped _ _ Hw E1) as (_ & _ & U). split; [lia|]. split; [reflexivity|]. unfold uniform in *. clear -U. unfold with_weights.
  revert ws1 U. induction evs as [|e evs IH]; intros [|w ws] U; cbn [combine map]; constructor; [inversion U; assumption|apply IH; inversion U; assumption].
Qed.
Print Assumptions C96_normalisation.

(** A case: a difference of two weights and a change of normalisation, with a search that delivers all other events *)
Definition everything : search_algo RN := fun n d _ q => Some (map (fun i => (i, d q i)) (filter (fun i => negb (i =? q)%nat) (seq 0 n))).
Definition no_dist : Event RN -> Event RN -> RN := fun _ _ => 0.
Definition two_weights : list (Event RN) := [mkEvent (N := RN) 0%nat [-1; 2] []; mkEvent (N := RN) 1%nat [3; 4] []].
Definition differences : list (list R) := [[2]; [1; -1]].
Lemma lt_no a b : b <= a -> nltb (n := RN) a b = false.
Proof. intros H. cbn. unfold Rltb. destruct (Rlt_dec a b); [exfalso; lra|reflexivity]. Qed.
Lemma lt_yes a b : a < b -> nltb (n := RN) a b = true.
Proof. intros H. cbn. unfold Rltb. destruct (Rlt_dec a b); [reflexivity|exfalso; lra]. Qed.
Lemma le_yes a b : a <= b -> nleb (n := RN) a b = true.
Proof. intros H. cbn. unfold Rleb. destruct (Rle_dec a b); [reflexivity|exfalso; lra]. Qed.
Lemma two_run : exists cs, resampler_resample (N := RN) true isort Next everything no_dist 1 two_weights =
  Some ([mkEvent (N := RN) 0%nat [1; 3] []; mkEvent (N := RN) 1%nat [1; 3] []], cs) /\ map members cs = [[0; 1]]%nat.
Proof.
  assert (B : select_seeds (N := RN) isort Next (map ev_weights two_weights) = Some [0%nat]).
  { unfold select_seeds, two_weights. cbn [map ev_weights omap central nth_error length seq combine filter]. change (@n0 RN) with 0. rewrite (lt_yes (-1) 0), (lt_no 3 0) by lra. reflexivity. }
  unfold resampler_resample. cbv zeta. match goal with |- exists _, match ?o with _ => _ end = _ /\ _ => assert (B' : o = Some [0%nat]) by exact B; rewrite B' end.
  unfold resample_seeds, two_weights. cbn [ofold]. unfold seed_step. cbn [map ev_weights length Nat.leb]. unfold weight_at. cbn [nth_error central]. change (@n0 RN) with 0. rewrite (lt_no 0 (-1)) by lra.
  unfold everything. cbn [seq filter negb Nat.eqb map]. unfold cell_new, weight_at. cbn [nth_error central cell_grow]. unfold weight_at. cbn [nth_error central weight_sum]. cbv zeta. change (@n0 RN) with 0.
  rewrite (le_yes 0) by (cbn; lra). unfold cell_resample, resample_multi. cbn.
  eexists. split; [apply f_equal; apply f_equal2; [|reflexivity]|reflexivity].
  assert (E1 : (-1 + 3) * (1 / (1 + 1)) = 1) by field. assert (E2 : (2 + 4) * (1 / (1 + 1)) = 3) by field. rewrite E1, E2. reflexivity.
Qed.
Example C96_case : keeps_central 2 differences /\ shaped true 2 (map ev_weights two_weights) /\
  exists r' cs', resampler_resample (N := RN) true isort Next everything no_dist 1 (map (reweighted differences) two_weights) = Some (r', cs') /\
    map ev_weights r' = [[2; -2]; [2; -2]] /\ map members cs' = [[0; 1]]%nat.
Proof.
  assert (K : keeps_central 2 differences) by (split; [lra|]; exists [[1; -1]]; reflexivity).
  assert (W : shaped true 2 (map ev_weights two_weights)) by (split; [lia|]; split; [discriminate|]; repeat constructor).
  split; [exact K|]. split; [exact W|]. destruct two_run as (cs & E & M).
  destruct (C96_run true 2 isort Next everything no_dist 1 2 differences two_weights _ cs K ltac:(discriminate) W ltac:(reflexivity) E) as (r' & cs' & E' & -> & M' & _).
  eexists _, cs'. split; [exact E'|]. split; [|rewrite M', M; reflexivity].
  unfold reweighted, mix, differences, combination, Rsum. cbn.
  assert (X : forall a b a' b' : R, a = a' -> b = b' -> [[a; b]; [a; b]] = [[a'; b']; [a'; b']]) by (intros; subst; reflexivity). apply X; ring.
Qed.

(** If the central weight is combined with others, then the outcome is not the combination of the original outcomes: the central weights
    decide which events are averaged. *)
Theorem C96_central_refuted : exists A (evs r r' : list (Event RN)) cs cs', shaped true 2 (map ev_weights evs) /\ length A = 2%nat /\
  resampler_resample (N := RN) true isort Next everything no_dist 1 evs = Some (r, cs) /\
  resampler_resample (N := RN) true isort Next everything no_dist 1 (map (reweighted A) evs) = Some (r', cs') /\
  r' <> map (reweighted A) r.
Proof.
  destruct two_run as (cs & E & M). exists [[1; 1]; [0; 1]], two_weights, [mkEvent (N := RN) 0%nat [1; 3] []; mkEvent (N := RN) 1%nat [1; 3] []], (map (reweighted [[1; 1]; [0; 1]]) two_weights), cs, [].
  split; [split; [lia|]; split; [discriminate|]; repeat constructor|]. split; [reflexivity|]. split; [exact E|]. split.
  - assert (Q : map (reweighted [[1; 1]; [0; 1]]) two_weights = [mkEvent (N := RN) 0%nat [1; 2] []; mkEvent (N := RN) 1%nat [7; 4] []]).
    { unfold two_weights, reweighted, mix, combination, Rsum. cbn.
      assert (X : forall a b c d a' b' c' d' : R, a = a' -> b = b' -> c = c' -> d = d' ->
        [mkEvent (N := RN) 0%nat [a; b] []; mkEvent (N := RN) 1%nat [c; d] []] = [mkEvent (N := RN) 0%nat [a'; b'] []; mkEvent (N := RN) 1%nat [c'; d'] []]) by (intros; subst; reflexivity). apply X; ring. }
    rewrite Q. assert (B : select_seeds (N := RN) isort Next [[1; 2]; [7; 4]] = Some []).
    { unfold select_seeds. cbn [omap central nth_error length seq combine filter]. change (@n0 RN) with 0. rewrite (lt_no 1 0), (lt_no 7 0) by lra. reflexivity. }
    unfold resampler_resample. cbv zeta. cbn [map ev_weights]. match goal with |- match ?o with _ => _ end = _ => assert (B' : o = Some []) by exact B; rewrite B' end. reflexivity.
  - unfold two_weights, reweighted, mix, combination, Rsum. cbn. intros H. injection H as H _ _. lra.
Qed.
Print Assumptions C96_central_refuted.
