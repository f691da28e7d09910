(** Runs on a part of the events that is far from the others. *)
From Coq Require Import Permutation.
From Verif Require Import Base BaseProofs Num ModelEvent ModelCell ModelSeeds ModelNaive ModelResampler SpecWeights SpecSearch SpecOrder CellProofs RunProofs SeedsProofs OrderProofs PropsRun.
From Coq Require Import Lia List.
Import ListNotations.

(** the positions of the elements kept by a filter *)
Lemma embed (bs : list bool) : exists f : nat -> nat, (forall i j, i < j -> f i < f j) /\
  (forall A (p : A -> bool) l, map p l = bs -> forall i, nth_error l (f i) = nth_error (filter p l) i) /\
  (forall j, nth_error bs j = Some true -> exists i, f i = j).
Proof.
  induction bs as [|b bs (f & M & E & S)].
  - exists (fun i => i). split; [auto|]. split; [|intros j H; destruct j; discriminate]. intros A p [|x l] H i; [reflexivity|discriminate].
  - destruct b.
    + exists (fun i => match i with 0 => 0 | Datatypes.S i => Datatypes.S (f i) end). split; [|split].
      * intros [|i] [|j] H; try lia. pose proof (M i j). lia.
      * intros A p [|x l] H i; [discriminate|]. injection H as H1 H2. cbn [filter]. rewrite H1. destruct i as [|i]; cbn [nth_error]; [reflexivity|]. apply E. exact H2.
      * intros [|j] H; [exists 0; reflexivity|]. destruct (S j H) as (i & <-). exists (Datatypes.S i). reflexivity.
    + exists (fun i => Datatypes.S (f i)). split; [|split].
      * intros i j H. pose proof (M i j H). lia.
      * intros A p [|x l] H i; [discriminate|]. injection H as H1 H2. cbn [filter nth_error]. rewrite H1. apply E. exact H2.
      * intros [|j] H; [discriminate|]. destruct (S j H) as (i & <-). exists i. reflexivity.
Qed.

Section Region.
Context (N : NumOps) (f : nat -> nat) (Hf : forall i j, i < j -> f i < f j).

Lemma f_lt i j : f i < f j <-> i < j.
Proof. split; [|apply Hf]. intros H. destruct (Nat.lt_trichotomy i j) as [G|[G|G]]; [exact G|subst; lia|apply Hf in G; lia]. Qed.
Lemma f_eq i j : f i = f j -> i = j.
Proof. intros H. destruct (Nat.lt_trichotomy i j) as [G|[G|G]]; [apply Hf in G; lia|exact G|apply Hf in G; lia]. Qed.
Lemma f_leb i j : Nat.leb (f i) (f j) = Nat.leb i j.
Proof. apply eq_true_iff_eq. rewrite !Nat.leb_le. pose proof (f_lt j i). lia. Qed.
Lemma f_eqb i j : Nat.eqb (f i) (f j) = Nat.eqb i j.
Proof. apply eq_true_iff_eq. rewrite !Nat.eqb_eq. split; [apply f_eq|congruence]. Qed.
Lemma f_sort l : isort Nat.leb (map f l) = map f (isort Nat.leb l).
Proof.
  unfold isort. induction l as [|a l IH]; [reflexivity|]. cbn [map fold_right]. rewrite IH. generalize (fold_right (insert Nat.leb) [] l). intros k.
  induction k as [|b k IHk]; [reflexivity|]. cbn [map insert]. rewrite f_leb. destruct (a <=? b); [reflexivity|]. cbn [map]. rewrite IHk. reflexivity.
Qed.
Lemma f_nodup l : nodupb (map f l) = nodupb l.
Proof.
  induction l as [|a l IH]; [reflexivity|]. cbn [map nodupb]. rewrite IH. f_equal. f_equal. clear IH. induction l as [|b l IH]; [reflexivity|]. cbn [map existsb]. rewrite f_eqb, IH. reflexivity.
Qed.

(** the weights of the part and of the whole *)
Definition part (A U : weights_state N) : Prop := forall i, nth_error U (f i) = nth_error A i.
Definition moved_cell (c : Cell N) : Cell N := mkCell (map f (members c)) (radius c) (weight_sum c).
Definition moved_nbrs (l : list (nat * N)) : list (nat * N) := map (fun x => (f (fst x), snd x)) l.

Lemma part_lt A U i : part A U -> (f i < length U <-> i < length A).
Proof. intros H. rewrite <- !nth_error_Some, H. reflexivity. Qed.
Lemma part_weight A U i : part A U -> weight_at U (f i) = weight_at A i.
Proof. intros H. unfold weight_at. rewrite H. reflexivity. Qed.
Lemma part_set A U i w : part A U -> match set_nth i w A, set_nth (f i) w U with Some A', Some U' => part A' U' | None, None => True | _, _ => False end.
Proof.
  intros H. pose proof (part_lt A U i H) as L. destruct (set_nth i w A) as [A'|] eqn:E1; destruct (set_nth (f i) w U) as [U'|] eqn:E2.
  - apply set_nth_spec in E1 as (_ & _ & E1). apply set_nth_spec in E2 as (_ & _ & E2). intros j. rewrite E1, E2, f_eqb, H. reflexivity.
  - apply set_nth_spec in E1 as (E1 & _). apply L in E1. destruct (set_nth_some w U E1) as (x & Ex). congruence.
  - apply set_nth_spec in E2 as (E2 & _). apply L in E2. destruct (set_nth_some w A E2) as (x & Ex). congruence.
  - exact I.
Qed.
Lemma part_omap B (g h : nat -> option B) l : (forall i, h (f i) = g i) -> omap h (map f l) = omap g l.
Proof. intros H. induction l as [|a l IH]; [reflexivity|]. cbn [map omap]. rewrite H, IH. reflexivity. Qed.
Lemma part_write w : forall l A U, part A U -> match write_all A l w, write_all U (map f l) w with Some A', Some U' => part A' U' | None, None => True | _, _ => False end.
Proof.
  induction l as [|i l IH]; intros A U H; cbn [map write_all]; [exact H|]. pose proof (part_set A U i w H) as G.
  destruct (set_nth i w A), (set_nth (f i) w U); try contradiction; [apply IH; exact G|exact I].
Qed.
Lemma part_copy avg : forall l A U, part A U -> match copy_all A l avg, copy_all U (map f l) avg with Some A', Some U' => part A' U' | None, None => True | _, _ => False end.
Proof.
  induction l as [|i l IH]; intros A U H; cbn [map copy_all]; [exact H|]. unfold get_weights. rewrite H. destruct (nth_error A i) as [old|]; [|exact I]. destruct (weights_copy_from old avg) as [w|]; [|exact I].
  pose proof (part_set A U i w H) as G. destruct (set_nth i w A), (set_nth (f i) w U); try contradiction; [apply IH; exact G|exact I].
Qed.
Lemma part_resample mw A U c : part A U ->
  match cell_resample mw A c, cell_resample mw U (moved_cell c) with Some A', Some U' => part A' U' | None, None => True | _, _ => False end.
Proof.
  intros H. unfold cell_resample. destruct mw.
  - unfold resample_multi. cbn [members moved_cell]. rewrite f_sort, f_nodup. cbv zeta. destruct (nodupb (isort Nat.leb (members c))); [|exact I].
    destruct (isort Nat.leb (members c)) as [|i rest]; [exact I|]. cbn [map]. assert (Hg : get_weights U (f i) = get_weights A i) by apply H. rewrite Hg.
    rewrite (part_omap _ (get_weights A) (get_weights U) rest) by (intros j; apply H). destruct (get_weights A i) as [w0|]; [|exact I]. destruct (omap (get_weights A) rest) as [wr|]; [|exact I].
    destruct (ofold weights_add wr w0) as [total|]; [|exact I]. cbn [length]. rewrite map_length.
    set (avg := map (fun w => nmul w (ndiv n1 (nofnat (Datatypes.S (length rest))))) total). pose proof (part_copy avg rest A U H) as G.
    destruct (copy_all A rest avg), (copy_all U (map f rest) avg); try contradiction; [|exact I]. apply part_set. exact G.
  - unfold resample_single. cbn [members moved_cell]. rewrite f_sort, f_nodup. cbv zeta. destruct (nodupb (isort Nat.leb (members c))); [|exact I].
    rewrite (part_omap _ (weight_at A) (weight_at U)) by (intros j; apply part_weight; exact H). destruct (omap (weight_at A) (isort Nat.leb (members c))) as [wts|]; [|exact I]. rewrite map_length. apply part_write. exact H.
Qed.
Lemma part_grow A U : part A U -> forall nbrs c, cell_grow U (moved_nbrs nbrs) (moved_cell c) = option_map moved_cell (cell_grow A nbrs c).
Proof.
  intros H. induction nbrs as [|[i d] nbrs IH]; intros c; [reflexivity|]. cbn [moved_nbrs map cell_grow fst snd]. rewrite (part_weight A U i H). destruct (weight_at A i) as [w|]; [|reflexivity].
  cbv zeta. cbn [moved_cell weight_sum members].
  assert (E : mkCell (map f (members c) ++ [f i]) d (nadd (weight_sum c) w) = moved_cell (mkCell (members c ++ [i]) d (nadd (weight_sum c) w))) by (unfold moved_cell; cbn [members radius weight_sum]; rewrite map_app; reflexivity).
  rewrite E. destruct (nleb n0 (nadd (weight_sum c) w)); [reflexivity|]. apply IH.
Qed.

Context (n : nat) (inside : nat -> bool) (Hin : forall i, f i < n -> inside (f i) = true) (Hout : forall t, inside t = true -> exists i, f i = t).
Context (mw : bool) (nearA nearU : search N).

Definition cell_inside (c : Cell N) : bool := match members c with s :: _ => inside s | [] => false end.
Definition mirrored (st st' : weights_state N * list (Cell N)) : Prop :=
  part (fst st) (fst st') /\ length (fst st') = n /\ filter cell_inside (snd st') = map moved_cell (snd st).

Lemma grow_members (P : nat -> Prop) (ws : weights_state N) : forall nbrs c c', cell_grow ws nbrs c = Some c' -> Forall P (members c) -> Forall (fun x => P (fst x)) nbrs ->
  Forall P (members c') /\ hd_error (members c') = hd_error (members c ++ members c').
Proof.
  induction nbrs as [|[i d] nbrs IH]; intros c c' H Hc Hn; cbn [cell_grow] in H; [injection H as <-; split; [exact Hc|destruct (members c); reflexivity]|].
  destruct (weight_at ws i) as [w|]; [|discriminate]. inversion Hn as [|? ? Hi Hn']; subst. cbn [fst] in Hi. cbv zeta in H. destruct (nleb n0 (nadd (weight_sum c) w)).
  - injection H as <-. cbn [members]. split; [apply Forall_app; auto|]. destruct (members c); reflexivity.
  - destruct (IH _ _ H) as (G1 & G2); [cbn [members]; apply Forall_app; auto|exact Hn'|]. split; [exact G1|]. cbn [members] in G2. destruct (members c); [reflexivity|]. rewrite G2. reflexivity.
Qed.

Lemma in_step s st st' st1' : mirrored st st' -> f s < n -> (exists l, nearA s = Some l /\ nearU (f s) = Some (moved_nbrs l)) ->
  seed_step mw nearU st' (f s) = Some st1' -> exists st1, seed_step mw nearA st s = Some st1 /\ mirrored st1 st1'.
Proof.
  destruct st as [A ca], st' as [U cu]. intros (P & L & F) Hs (l & E1 & E2) H. cbn [fst snd] in *. unfold seed_step in *.
  assert (G : (length A <=? s) = (length U <=? f s)) by (apply eq_true_iff_eq; rewrite !Nat.leb_le; pose proof (part_lt A U s P); lia). rewrite G. destruct (length U <=? f s); [discriminate|].
  rewrite (part_weight A U s P) in H. destruct (weight_at A s) as [w|] eqn:Ew; [|discriminate]. destruct (nltb n0 w).
  - injection H as <-. eexists. split; [reflexivity|]. split; [exact P|]. auto.
  - rewrite E1. rewrite E2 in H. unfold cell_new in *. rewrite Ew. rewrite (part_weight A U s P), Ew in H.
    assert (Q : mkCell [f s] n0 w = moved_cell (mkCell [s] n0 w)) by reflexivity. rewrite Q, (part_grow A U P) in H.
    destruct (cell_grow A l (mkCell [s] n0 w)) as [c|] eqn:Ec; [|discriminate]. cbn [option_map] in H. pose proof (part_resample mw A U c P) as R.
    destruct (cell_resample mw U (moved_cell c)) as [U1|] eqn:Er; [|discriminate]. destruct (cell_resample mw A c) as [A1|]; [|contradiction]. injection H as <-.
    eexists. split; [reflexivity|]. split; [exact R|]. cbn [fst snd]. split; [destruct (resample_frame _ _ _ Er) as (_ & _ & G1 & _); congruence|].
    rewrite filter_app, map_app, F. f_equal. cbn [filter map]. assert (T : cell_inside (moved_cell c) = true); [|rewrite T; reflexivity].
    destruct (grow_members (fun _ => True) A l _ c Ec) as (_ & Hd); [repeat constructor|apply Forall_forall; auto|]. cbn [members app hd_error] in Hd.
    unfold cell_inside, moved_cell. cbn [members]. destruct (members c) as [|x k]; [discriminate|]. injection Hd as ->. cbn [map]. apply Hin. exact Hs.
Qed.
Lemma out_step t st st' st1' : mirrored st st' -> inside t = false -> (forall l, nearU t = Some l -> Forall (fun x => inside (fst x) = false) l) ->
  seed_step mw nearU st' t = Some st1' -> mirrored st st1'.
Proof.
  destruct st as [A ca], st' as [U cu]. intros (P & L & F) Ht Hn H. cbn [fst snd] in *. unfold seed_step in *. destruct (length U <=? t); [discriminate|].
  destruct (weight_at U t) as [w|] eqn:Ew; [|discriminate]. destruct (nltb n0 w); [injection H as <-; split; [exact P|]; auto|].
  destruct (nearU t) as [l|]; [|discriminate]. specialize (Hn l eq_refl). unfold cell_new in H. rewrite Ew in H. destruct (cell_grow U l (mkCell [t] n0 w)) as [c|] eqn:Ec; [|discriminate].
  destruct (cell_resample mw U c) as [U1|] eqn:Er; [|discriminate]. injection H as <-.
  destruct (grow_members (fun i => inside i = false) U l _ c Ec) as (Hm & Hd); [repeat constructor; exact Ht|exact Hn|]. cbn [members app hd_error] in Hd.
  destruct (resample_frame _ _ _ Er) as (_ & Lt & Le & avg & Fr). split; [|split; cbn [fst snd]].
  - cbn [fst]. intros i. rewrite Fr. destruct (in_dec Nat.eq_dec (f i) (members c)) as [Hi|Hi]; [|apply P]. exfalso.
    rewrite Forall_forall in Hm. specialize (Hm _ Hi). rewrite Hin in Hm; [discriminate|]. specialize (Lt _ Hi). lia.
  - congruence.
  - rewrite filter_app, F. cbn [filter]. assert (T : cell_inside c = false); [|rewrite T, app_nil_r; reflexivity].
    unfold cell_inside. destruct (members c) as [|x k]; [reflexivity|]. injection Hd as ->. exact Ht.
Qed.
Lemma region_seeds : forall seedsU seedsA st st' st1', Forall (fun t => t < n) seedsU -> filter inside seedsU = map f seedsA -> mirrored st st' ->
  (forall s, f s < n -> exists l, nearA s = Some l /\ nearU (f s) = Some (moved_nbrs l)) ->
  (forall t, t < n -> inside t = false -> forall l, nearU t = Some l -> Forall (fun x => inside (fst x) = false) l) ->
  ofold (seed_step mw nearU) seedsU st' = Some st1' -> exists st1, ofold (seed_step mw nearA) seedsA st = Some st1 /\ mirrored st1 st1'.
Proof.
  induction seedsU as [|t seedsU IH]; intros seedsA st st' st1' Hlt Hs M H1 H2 H; cbn [ofold filter] in *.
  - destruct seedsA; [|discriminate]. injection H as <-. exists st. split; [reflexivity|exact M].
  - inversion Hlt as [|? ? Ht Hlt']; subst. destruct (seed_step mw nearU st' t) as [st2'|] eqn:E; [|discriminate]. destruct (inside t) eqn:Ei.
    + destruct seedsA as [|s seedsA]; [discriminate|]. injection Hs as E1 Hs. subst t. destruct (in_step s st st' st2' M Ht (H1 s Ht) E) as (st2 & E2 & M2). cbn [ofold]. rewrite E2. eapply IH; eassumption.
    + pose proof (out_step t st st' st2' M Ei (H2 t Ht Ei) E) as M2. eapply IH; eassumption.
Qed.
End Region.
