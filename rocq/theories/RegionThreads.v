(** Several threads on a sample and on a part of the events that is far from the others. *)
From Verif Require Import Base BaseProofs Num ModelEvent ModelCell ModelSeeds ModelResampler ModelConc SpecWeights SpecConc CellProofs RegionProofs.
From Coq Require Import Lia List.
Import ListNotations.

Section Region.
Context (N : NumOps) (f : nat -> nat) (Hf : forall i j, i < j -> f i < f j).
Context (n : nat) (inside : nat -> bool) (Hin : forall i, f i < n -> inside (f i) = true).
Context (mw : bool) (nearA nearU : search N).
Hypothesis Hnear : forall s, f s < n -> exists l, nearA s = Some l /\ nearU (f s) = Some (moved_nbrs N f l).

Definition outside (t : nat) : Prop := inside t = false /\ t < n.
Hypothesis Hfar : forall t, outside t -> forall l, nearU t = Some l -> Forall (fun x => outside (fst x)) l.

(** a thread that works on the part, seen from the whole *)
Definition moved (t : tstate N) : tstate N :=
  match t with
  | TIdle => TIdle
  | TCheck s => TCheck (f s)
  | TStart s => TStart (f s)
  | TGrow c l => TGrow (moved_cell N f c) (moved_nbrs N f l)
  | TLock h l => TLock (map f h) (map f l)
  | TWrite avg l h => TWrite avg (map f l) (map f h)
  end.
(** a thread that works elsewhere *)
Definition away (t : tstate N) : Prop :=
  match t with
  | TIdle => True
  | TCheck s => outside s
  | TStart s => outside s
  | TGrow c l => Forall outside (members c) /\ Forall (fun x => outside (fst x)) l
  | TLock h l => Forall outside h /\ Forall outside l
  | TWrite _ l h => Forall outside l /\ Forall outside h
  end.
Definition mirror (a b : tstate N) : Prop := b = moved a \/ (a = TIdle /\ away b).
Definition sim (s s' : cstate N) : Prop :=
  part N f (mem s) (mem s') /\ length (mem s') = n /\ filter inside (pool s') = map f (pool s) /\ Forall2 mirror (threads s) (threads s').

Lemma outside_f i : ~ outside (f i).
Proof. intros [H1 H2]. rewrite (Hin i H2) in H1. discriminate. Qed.
Lemma sim_locked s s' i : sim s s' -> is_locked s' (f i) = is_locked s i.
Proof.
  intros (_ & _ & _ & F). unfold is_locked. induction F as [|a b l l' H F IH]; [reflexivity|]. cbn [existsb]. rewrite IH. f_equal. clear IH F.
  assert (E : forall h, existsb (Nat.eqb (f i)) (map f h) = existsb (Nat.eqb i) h) by (induction h as [|j h IH]; [reflexivity|]; cbn [map existsb]; rewrite (f_eqb f Hf), IH; reflexivity).
  destruct H as [->|[-> H]].
  - destruct a; cbn [moved held_of]; try reflexivity; apply E.
  - cbn [held_of existsb]. assert (G : forall h, Forall outside h -> existsb (Nat.eqb (f i)) h = false).
    { intros h. induction 1 as [|j h Hj Hh IH]; [reflexivity|]. cbn [existsb]. rewrite IH, Bool.orb_false_r. apply Nat.eqb_neq. intros <-. exact (outside_f i Hj). }
    destruct b; cbn [held_of away existsb] in *; try reflexivity; apply G; apply H.
Qed.
Lemma sim_read s s' i : sim s s' -> read_weight s' (f i) = read_weight s i.
Proof. intros H. unfold read_weight. rewrite (sim_locked s s' i H). destruct (is_locked s i); [reflexivity|]. apply part_weight. apply H. Qed.

Lemma set_mirror l l' : Forall2 mirror l l' -> forall t x x' k', mirror x x' -> set_nth t x' l' = Some k' -> exists k, set_nth t x l = Some k /\ Forall2 mirror k k'.
Proof.
  induction 1 as [|a b l l' Hab F IH]; intros [|t] x x' k' Hx H; cbn [set_nth] in *; try discriminate.
  - injection H as <-. eexists. split; [reflexivity|]. constructor; assumption.
  - destruct (set_nth t x' l') as [m'|] eqn:E; [|discriminate]. injection H as <-. destruct (IH t x x' m' Hx E) as (m & -> & Fm). eexists. split; [reflexivity|]. constructor; assumption.
Qed.
Lemma set_still l l' : Forall2 mirror l l' -> forall t x' k', nth_error l t = Some TIdle -> away x' -> set_nth t x' l' = Some k' -> Forall2 mirror l k'.
Proof.
  induction 1 as [|a b l l' Hab F IH]; intros [|t] x' k' Ht Hx H; cbn [set_nth nth_error] in *; try discriminate.
  - injection H as <-. injection Ht as ->. constructor; [right; auto|assumption].
  - destruct (set_nth t x' l') as [m'|] eqn:E; [|discriminate]. injection H as <-. constructor; [assumption|]. eapply IH; eassumption.
Qed.
Lemma nth_mirror l l' : Forall2 mirror l l' -> forall t b, nth_error l' t = Some b -> exists a, nth_error l t = Some a /\ mirror a b.
Proof. induction 1 as [|a b l l' Hab F IH]; intros [|t] x H; cbn [nth_error] in *; try discriminate; [injection H as <-; eauto|eauto]. Qed.
Lemma pool_in l : forall l' k x, filter inside l = map f l' -> nth_error l k = Some x -> inside x = true ->
  exists k' s, nth_error l' k' = Some s /\ x = f s /\ filter inside (remove_nth k l) = map f (remove_nth k' l').
Proof.
  induction l as [|a l IH]; intros l' [|k] x H Hk Hx; try discriminate; cbn [nth_error filter remove_nth] in *.
  - injection Hk as ->. rewrite Hx in H. destruct l' as [|s l']; [discriminate|]. injection H as H1 H2. exists 0, s. auto.
  - destruct (inside a).
    + destruct l' as [|s l']; [discriminate|]. injection H as H1 H2. destruct (IH l' k x H2 Hk Hx) as (k' & s' & E1 & E2 & E3). exists (S k'), s'. split; [exact E1|]. split; [exact E2|]. cbn [remove_nth map]. rewrite E3, H1. reflexivity.
    + eapply IH; eassumption.
Qed.
Lemma pool_out l : forall k x, nth_error l k = Some x -> inside x = false -> filter inside (remove_nth k l) = filter inside l.
Proof.
  induction l as [|a l IH]; intros [|k] x Hk Hx; try discriminate; cbn [nth_error filter remove_nth] in *.
  - injection Hk as ->. rewrite Hx. reflexivity.
  - rewrite (IH k x Hk Hx). reflexivity.
Qed.
Lemma part_average A U ms : part N f A U -> cell_average mw U (map f ms) = cell_average mw A ms.
Proof.
  intros H. unfold cell_average. destruct mw.
  - destruct ms as [|i rest]; [reflexivity|]. cbn [map]. assert (Hg : get_weights U (f i) = get_weights A i) by apply H. rewrite Hg.
    rewrite (part_omap f _ (get_weights A) (get_weights U) rest) by (intros j; apply H). cbn [length]. rewrite map_length. reflexivity.
  - rewrite (part_omap f _ (weight_at A) (weight_at U)) by (intros j; apply part_weight; exact H). rewrite map_length. reflexivity.
Qed.
Lemma part_write_one A U i avg U' : part N f A U -> write_weights mw U (f i) avg = Some U' -> exists A', write_weights mw A i avg = Some A' /\ part N f A' U'.
Proof.
  intros H. unfold write_weights. assert (Hg : get_weights U (f i) = get_weights A i) by apply H. rewrite Hg.
  assert (G : forall w, set_nth (f i) w U = Some U' -> exists A', set_nth i w A = Some A' /\ part N f A' U').
  { intros w E. pose proof (part_set N f Hf A U i w H) as P. rewrite E in P. destruct (set_nth i w A) as [A'|]; [eauto|contradiction]. }
  destruct mw; [|apply G]. destruct (get_weights A i) as [old|]; [|discriminate]. destruct (weights_copy_from old avg) as [w|]; [apply G|discriminate].
Qed.
Lemma write_length (U U' : weights_state N) t avg : write_weights mw U t avg = Some U' -> length U' = length U.
Proof.
  unfold write_weights. destruct mw; [destruct (get_weights U t) as [old|]; [|discriminate]; destruct (weights_copy_from old avg) as [w|]; [|discriminate]|]; intros E; apply set_nth_spec in E; apply E.
Qed.
Lemma part_write_away A U t avg U' : part N f A U -> outside t -> write_weights mw U t avg = Some U' -> part N f A U'.
Proof.
  intros H Ht. assert (G : forall w, set_nth t w U = Some U' -> part N f A U').
  { intros w E i. apply set_nth_spec in E as (_ & _ & E). rewrite E. destruct (Nat.eqb_spec (f i) t) as [E1|E1]; [subst t; destruct (outside_f i Ht)|]. destruct (Nat.eqb_spec t (f i)) as [E2|E2]; [congruence|]. apply H. }
  unfold write_weights. destruct mw; [|apply G]. destruct (get_weights U t) as [old|]; [|discriminate]. destruct (weights_copy_from old avg) as [w|]; [apply G|discriminate].
Qed.
Lemma order_moved h : write_order mw (map f h) = map f (write_order mw h).
Proof. unfold write_order. destruct mw; [|reflexivity]. destruct h; [reflexivity|]. cbn [map tl firstn]. rewrite map_app. reflexivity. Qed.

Lemma sim_step s s' t k s1' : sim s s' -> thread_step mw nearU s' t k = Some s1' -> sim s s1' \/ exists k' s1, thread_step mw nearA s t k' = Some s1 /\ sim s1 s1'.
Proof.
  intros H E. pose proof H as (P & L & Q & F). unfold thread_step in E. destruct (nth_error (threads s') t) as [b|] eqn:Eb; [|discriminate]. destruct (nth_mirror _ _ F t b Eb) as (a & Ea & M).
  (* a step of the part *)
  assert (Go : forall m m' p p' x x' l', mirror x x' -> part N f m m' -> length m' = n -> filter inside p' = map f p ->
    match set_nth t x' (threads s') with None => None | Some l => Some (mkConc m' p' l) end = Some l' ->
    exists l, match set_nth t x (threads s) with None => None | Some l => Some (mkConc m p l) end = Some l /\ sim l l').
  { intros m m' p p' x x' l' Hx Hm Hl Hp Hs. destruct (set_nth t x' (threads s')) as [k2|] eqn:Es; [|discriminate]. injection Hs as <-. destruct (set_mirror _ _ F t x x' k2 Hx Es) as (k1 & -> & Fk).
    eexists. split; [reflexivity|]. split; [exact Hm|]. auto. }
  (* a step elsewhere *)
  assert (Stay : forall m' p' x' l', a = TIdle -> away x' -> part N f (mem s) m' -> length m' = n -> filter inside p' = map f (pool s) ->
    match set_nth t x' (threads s') with None => None | Some l => Some (mkConc m' p' l) end = Some l' -> sim s l').
  { intros m' p' x' l' -> Hx Hm Hl Hp Hs. destruct (set_nth t x' (threads s')) as [k2|] eqn:Es; [|discriminate]. injection Hs as <-. split; [exact Hm|]. split; [exact Hl|]. split; [exact Hp|]. cbn [threads]. eapply set_still; eassumption. }
  assert (M' : b = moved a \/ (a = TIdle /\ away b /\ b <> TIdle)) by (destruct M as [M|[-> M]]; [left; exact M|]; destruct b; [left; reflexivity|..]; right; (split; [reflexivity|]); (split; [exact M|]); discriminate).
  clear M. destruct M' as [->|(Ei & Hb & Hn)].
  - unfold thread_step. rewrite Ea. destruct a as [|seed|seed|c l|held todo|avg tw held]; cbn [moved] in E.
    + destruct (nth_error (pool s') k) as [x|] eqn:Ek; [|discriminate]. destruct (length (mem s') <=? x) eqn:Ex; [discriminate|]. apply Nat.leb_gt in Ex. destruct (inside x) eqn:Ix.
      * right. destruct (pool_in _ _ _ _ Q Ek Ix) as (k' & q & E1 & -> & E3). exists k'. rewrite E1. assert (G : (length (mem s) <=? q) = false) by (apply Nat.leb_gt; apply (part_lt N f _ _ q P); exact Ex). rewrite G.
        refine (Go _ _ _ _ (TCheck q) (TCheck (f q)) _ _ P L E3 E). left. reflexivity.
      * left. refine (Stay _ _ (TCheck x) _ eq_refl _ P L _ E); [split; [exact Ix|lia]|]. rewrite (pool_out _ _ _ Ek Ix). exact Q.
    + right. exists 0. rewrite (sim_read s s' seed H) in E. destruct (read_weight s seed) as [w|]; [|discriminate]. refine (Go _ _ _ _ _ _ _ _ P L Q E). left. destruct (nltb n0 w); reflexivity.
    + right. exists 0. rewrite (sim_read s s' seed H) in E. destruct (read_weight s seed) as [w|] eqn:Ew; [|discriminate].
      assert (Hlt : f seed < n).
      { rewrite <- L. apply (part_lt N f _ _ seed P). unfold read_weight in Ew. destruct (is_locked s seed); [discriminate|]. unfold weight_at in Ew. apply nth_error_Some. intros G. rewrite G in Ew. discriminate. }
      destruct (Hnear seed Hlt) as (l & E1 & E2). rewrite E1. rewrite E2 in E. refine (Go _ _ _ _ _ _ _ _ P L Q E). left. reflexivity.
    + right. exists 0. destruct l as [|[i d] l]; cbn [moved_nbrs map fst snd] in E.
      * refine (Go _ _ _ _ _ _ _ _ P L Q E). left. cbn [moved map moved_cell members]. rewrite (f_sort f Hf). reflexivity.
      * rewrite (sim_read s s' i H) in E. destruct (read_weight s i) as [w|]; [|discriminate]. cbv zeta in *. cbn [members weight_sum moved_cell] in *. refine (Go _ _ _ _ _ _ _ _ P L Q E). left.
        destruct (nleb n0 (nadd (weight_sum c) w)); cbn [moved map]; [cbn [members]; rewrite <- (f_sort f Hf), map_app; reflexivity|]. unfold moved_cell. cbn [members radius weight_sum]. rewrite map_app. reflexivity.
    + right. exists 0. destruct todo as [|i todo]; cbn [map] in E.
      * rewrite (part_average _ _ held P) in E. destruct (cell_average mw (mem s) held) as [avg|]; [|discriminate]. refine (Go _ _ _ _ _ _ _ _ P L Q E). left. cbn [moved]. rewrite order_moved. reflexivity.
      * rewrite (sim_locked s s' i H) in E. destruct (is_locked s i); [discriminate|]. refine (Go _ _ _ _ _ _ _ _ P L Q E). left. cbn [moved]. rewrite map_app. reflexivity.
    + right. exists 0. destruct tw as [|i tw]; cbn [map] in E.
      * destruct held as [|j held]; cbn [map] in E; refine (Go _ _ _ _ _ _ _ _ P L Q E); left; reflexivity.
      * destruct (write_weights mw (mem s') (f i) avg) as [m'|] eqn:Em; [|discriminate]. destruct (part_write_one _ _ _ _ _ P Em) as (m & -> & Pm). pose proof (write_length _ _ _ _ Em) as Lm.
        refine (Go _ _ _ _ _ _ _ _ Pm (eq_trans Lm L) Q E). left. destruct mw; reflexivity.
  - left. destruct b as [|seed|seed|c l|held todo|avg tw held]; cbn [away] in Hb.
    + destruct (Hn eq_refl).
    + destruct (read_weight s' seed) as [w|]; [|discriminate]. refine (Stay _ _ _ _ Ei _ P L Q E). destruct (nltb n0 w); [exact I|exact Hb].
    + destruct (read_weight s' seed) as [w|]; [|discriminate]. destruct (nearU seed) as [l|] eqn:El; [|discriminate]. refine (Stay _ _ _ _ Ei _ P L Q E). split; [constructor; [exact Hb|constructor]|]. exact (Hfar seed Hb l El).
    + destruct Hb as [Hc Hl].
      assert (Srt : forall ms, Forall outside ms -> Forall outside (isort Nat.leb ms)).
      { intros ms Hms. apply Forall_forall. intros x Hx. rewrite Forall_forall in Hms. apply Hms. eapply Permutation.Permutation_in; [|exact Hx]. apply Permutation.Permutation_sym. apply isort_perm. }
      destruct l as [|[i d] l].
      * refine (Stay _ _ _ _ Ei _ P L Q E). split; [constructor|apply Srt; exact Hc].
      * pose proof (Forall_inv Hl) as Hi. pose proof (Forall_inv_tail Hl) as Hl'. cbn [fst] in Hi. destruct (read_weight s' i) as [w|]; [|discriminate]. cbv zeta in E. cbn [members] in E. refine (Stay _ _ _ _ Ei _ P L Q E).
        assert (Hc' : Forall outside (members c ++ [i])) by (apply Forall_app; auto). destruct (nleb n0 (nadd (weight_sum c) w)); [split; [constructor|apply Srt; exact Hc']|split; assumption].
    + destruct Hb as [Hh Ht]. destruct todo as [|i todo].
      * destruct (cell_average mw (mem s') held) as [avg|]; [|discriminate]. refine (Stay _ _ _ _ Ei _ P L Q E). split; [|exact Hh]. unfold write_order. destruct mw; [|exact Hh]. destruct Hh; [constructor|]. cbn [tl firstn]. apply Forall_app. auto.
      * pose proof (Forall_inv Ht) as Ht1. pose proof (Forall_inv_tail Ht) as Ht2. destruct (is_locked s' i); [discriminate|]. refine (Stay _ _ _ _ Ei _ P L Q E). split; [apply Forall_app; auto|assumption].
    + destruct Hb as [Ht Hh]. destruct tw as [|i tw].
      * destruct held as [|j held]; refine (Stay _ _ _ _ Ei _ P L Q E); [exact I|]. pose proof (Forall_inv_tail Hh) as Hh2. split; [constructor|assumption].
      * pose proof (Forall_inv Ht) as Ht1. pose proof (Forall_inv_tail Ht) as Ht2. destruct (write_weights mw (mem s') i avg) as [m'|] eqn:Em; [|discriminate]. pose proof (write_length _ _ _ _ Em) as Lm.
        refine (Stay _ _ _ _ Ei _ (part_write_away _ _ _ _ _ P _ Em) _ Q E); [|assumption|congruence]. destruct mw; split; assumption.
Qed.
Lemma sim_steps k s s' s1' : sim s s' -> conc_steps mw nearU k s' s1' -> exists k1 s1, conc_steps mw nearA k1 s s1 /\ sim s1 s1'.
Proof.
  intros H E. induction E as [s'|k s' s1' s2' E IH (t & c & Et)].
  - exists 0, s. split; [constructor|exact H].
  - destruct (IH H) as (k1 & s1 & E1 & H1). destruct (sim_step _ _ _ _ _ H1 Et) as [G|(c' & s2 & G1 & G2)]; [eauto|]. exists (S k1), s2. split; [|exact G2]. econstructor; [exact E1|]. exists t, c'. exact G1.
Qed.
Lemma sim_done s s' : sim s s' -> done s' -> done s.
Proof.
  intros (_ & _ & Q & F) [D1 D2]. split.
  - rewrite D1 in Q. destruct (pool s); [reflexivity|discriminate].
  - induction F as [|a b l l' H F IH]; [intros t []|]. intros t [<-|Ht]; [|apply IH; [intros x Hx; apply D2; right; exact Hx|exact Ht]].
    pose proof (D2 b (or_introl eq_refl)) as ->. destruct H as [H|[H _]]; [|exact H]. destruct a; try discriminate. reflexivity.
Qed.

(** *** Steps of the part, made in the whole while no thread works elsewhere *)
Definition sim0 (s s' : cstate N) : Prop :=
  part N f (mem s) (mem s') /\ length (mem s') = n /\ filter inside (pool s') = map f (pool s) /\ threads s' = map moved (threads s).
Lemma sim0_sim s s' : sim0 s s' -> sim s s'.
Proof.
  intros (P & L & Q & T). split; [exact P|]. split; [exact L|]. split; [exact Q|]. rewrite T. generalize (threads s). intros l. induction l; constructor; [left; reflexivity|assumption].
Qed.
Lemma set_moved x : forall l i, set_nth i (moved x) (map moved l) = option_map (map moved) (set_nth i x l).
Proof. induction l as [|a l IH]; intros [|i]; cbn [map set_nth option_map]; try reflexivity. rewrite IH. destruct (set_nth i x l); reflexivity. Qed.
Lemma pool_back l : forall l' k' q, filter inside l = map f l' -> nth_error l' k' = Some q ->
  exists k, nth_error l k = Some (f q) /\ filter inside (remove_nth k l) = map f (remove_nth k' l').
Proof.
  induction l as [|a l IH]; intros l' k' q H Hk; cbn [filter] in H.
  - destruct l'; [destruct k'; discriminate|discriminate].
  - destruct (inside a) eqn:Ia.
    + destruct l' as [|b l']; [discriminate|]. injection H as H1 H2. destruct k' as [|k'].
      * injection Hk as ->. exists 0. split; [rewrite H1; reflexivity|exact H2].
      * destruct (IH l' k' q H2 Hk) as (k & E1 & E2). exists (S k). split; [exact E1|]. cbn [remove_nth filter map]. rewrite Ia, E2, H1. reflexivity.
    + destruct (IH l' k' q H Hk) as (k & E1 & E2). exists (S k). split; [exact E1|]. cbn [remove_nth filter]. rewrite Ia. exact E2.
Qed.
Lemma part_write_back A U i avg A' : part N f A U -> write_weights mw A i avg = Some A' -> exists U', write_weights mw U (f i) avg = Some U' /\ part N f A' U'.
Proof.
  intros H. unfold write_weights. assert (Hg : get_weights U (f i) = get_weights A i) by apply H. rewrite Hg.
  assert (G : forall w, set_nth i w A = Some A' -> exists U', set_nth (f i) w U = Some U' /\ part N f A' U').
  { intros w E. pose proof (part_set N f Hf A U i w H) as P. rewrite E in P. destruct (set_nth (f i) w U) as [U'|]; [eauto|contradiction]. }
  destruct mw; [|apply G]. destruct (get_weights A i) as [old|]; [|discriminate]. destruct (weights_copy_from old avg) as [w|]; [apply G|discriminate].
Qed.
Lemma back_step s s' t k s1 : sim0 s s' -> thread_step mw nearA s t k = Some s1 -> exists k' s1', thread_step mw nearU s' t k' = Some s1' /\ sim0 s1 s1'.
Proof.
  intros H0 E. pose proof (sim0_sim s s' H0) as H. destruct H0 as (P & L & Q & T). unfold thread_step in E. destruct (nth_error (threads s) t) as [a|] eqn:Ea; [|discriminate].
  assert (Eb : nth_error (threads s') t = Some (moved a)) by (rewrite T; apply map_nth_error; exact Ea).
  assert (Go : forall m m' p p' x x' l, x' = moved x -> part N f m m' -> length m' = n -> filter inside p' = map f p ->
    match set_nth t x (threads s) with None => None | Some l => Some (mkConc m p l) end = Some l ->
    exists l', match set_nth t x' (threads s') with None => None | Some l => Some (mkConc m' p' l) end = Some l' /\ sim0 l l').
  { intros m m' p p' x x' l -> Hm Hl Hp Hs. rewrite T, set_moved. destruct (set_nth t x (threads s)) as [k2|]; [|discriminate]. injection Hs as <-. eexists. split; [reflexivity|]. split; [exact Hm|]. auto. }
  unfold thread_step. rewrite Eb. destruct a as [|seed|seed|c l|held todo|avg tw held]; cbn [moved].
  - destruct (nth_error (pool s) k) as [q|] eqn:Ek; [|discriminate]. destruct (length (mem s) <=? q) eqn:Eq; [discriminate|]. apply Nat.leb_gt in Eq.
    destruct (pool_back _ _ _ _ Q Ek) as (k' & E1 & E2). exists k'. rewrite E1. assert (G : (length (mem s') <=? f q) = false) by (apply Nat.leb_gt; apply (part_lt N f _ _ q P); exact Eq). rewrite G.
    exact (Go _ _ _ _ (TCheck q) (TCheck (f q)) _ eq_refl P L E2 E).
  - exists 0. rewrite (sim_read s s' seed H). destruct (read_weight s seed) as [w|]; [|discriminate]. refine (Go _ _ _ _ _ _ _ _ P L Q E). destruct (nltb n0 w); reflexivity.
  - exists 0. rewrite (sim_read s s' seed H). destruct (read_weight s seed) as [w|] eqn:Ew; [|discriminate].
    assert (Hlt : f seed < n).
    { rewrite <- L. apply (part_lt N f _ _ seed P). unfold read_weight in Ew. destruct (is_locked s seed); [discriminate|]. unfold weight_at in Ew. apply nth_error_Some. intros G. rewrite G in Ew. discriminate. }
    destruct (Hnear seed Hlt) as (l & E1 & E2). rewrite E2. rewrite E1 in E. refine (Go _ _ _ _ _ _ _ _ P L Q E). reflexivity.
  - exists 0. destruct l as [|[i d] l]; cbn [moved_nbrs map fst snd].
    + refine (Go _ _ _ _ _ _ _ _ P L Q E). cbn [moved map moved_cell members]. rewrite (f_sort f Hf). reflexivity.
    + rewrite (sim_read s s' i H). destruct (read_weight s i) as [w|]; [|discriminate]. cbv zeta in *. cbn [members weight_sum moved_cell] in *. refine (Go _ _ _ _ _ _ _ _ P L Q E).
      destruct (nleb n0 (nadd (weight_sum c) w)); cbn [moved map]; [cbn [members]; rewrite <- (f_sort f Hf), map_app; reflexivity|]. unfold moved_cell. cbn [members radius weight_sum]. rewrite map_app. reflexivity.
  - exists 0. destruct todo as [|i todo]; cbn [map].
    + rewrite (part_average _ _ held P). destruct (cell_average mw (mem s) held) as [avg|]; [|discriminate]. refine (Go _ _ _ _ _ _ _ _ P L Q E). cbn [moved]. rewrite order_moved. reflexivity.
    + rewrite (sim_locked s s' i H). destruct (is_locked s i); [discriminate|]. refine (Go _ _ _ _ _ _ _ _ P L Q E). cbn [moved]. rewrite map_app. reflexivity.
  - exists 0. destruct tw as [|i tw]; cbn [map].
    + destruct held as [|j held]; cbn [map]; refine (Go _ _ _ _ _ _ _ _ P L Q E); reflexivity.
    + destruct (write_weights mw (mem s) i avg) as [m|] eqn:Em; [|discriminate]. destruct (part_write_back _ _ _ _ _ P Em) as (m' & Em' & Pm). rewrite Em'. pose proof (write_length _ _ _ _ Em') as Lm.
      refine (Go _ _ _ _ _ _ _ _ Pm (eq_trans Lm L) Q E). destruct mw; reflexivity.
Qed.
Lemma back_steps k s s' s1 : sim0 s s' -> conc_steps mw nearA k s s1 -> exists k1 s1', conc_steps mw nearU k1 s' s1' /\ sim0 s1 s1'.
Proof.
  intros H E. induction E as [s|k s s1 s2 E IH (t & c & Et)].
  - exists 0, s'. split; [constructor|exact H].
  - destruct (IH H) as (k1 & s1' & E1 & H1). destruct (back_step _ _ _ _ _ H1 Et) as (c' & s2' & G1 & G2). exists (S k1), s2'. split; [|exact G2]. econstructor; [exact E1|]. exists t, c'. exact G1.
Qed.
End Region.
