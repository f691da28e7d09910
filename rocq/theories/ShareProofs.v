(** Proofs for C77: the numbers of events in the regions of a partition. *)
From Coq Require Import NArith.
From Verif Require Import Base BaseProofs Num ModelNaive ModelVPTree ModelResampler ModelPartition SpecTree SpecPartition SpecShare
  SeedsProofs NaiveProofs VPTreeProofs PartitionProofs.

(** *** Binary digits *)
Lemma num_cons b p : num (b :: p) = (if b then 2 ^ length p else 0) + num p.
Proof.
  induction p as [|c p IH] using rev_ind; [destruct b; reflexivity|].
  rewrite app_comm_cons, !num_snoc, IH, app_length. cbn [length]. rewrite Nat.add_1_r, Nat.pow_succ_r'. destruct b, c; lia.
Qed.
Lemma num_inj p : forall q, length p = length q -> num p = num q -> p = q.
Proof.
  induction p as [|b p IH]; intros [|c q] Hl Hn; try discriminate; [reflexivity|].
  injection Hl as Hl. rewrite !num_cons, <- Hl in Hn. pose proof (num_lt p). pose proof (num_lt q). rewrite <- Hl in *.
  destruct b, c; try lia; f_equal; apply IH; auto; lia.
Qed.
Lemma num_surj k : forall r, r < 2 ^ k -> exists p, length p = k /\ num p = r.
Proof.
  induction k as [|k IH]; intros r Hr.
  - exists []. split; auto. cbn in Hr. cbn. lia.
  - rewrite Nat.pow_succ_r' in Hr. destruct (Nat.lt_ge_cases r (2 ^ k)) as [H|H].
    + destruct (IH r H) as (p & <- & <-). exists (false :: p). split; auto.
    + destruct (IH (r - 2 ^ k)) as (p & Hp & Hn); [lia|]. exists (true :: p). split; [cbn; lia|]. rewrite num_cons, Hp, Hn. lia.
Qed.

(** *** The way of a point through the tree *)
Section Walk.
Context (F : NumOps) (D : F -> Prop) (Hord : order_on F D) (dist : nat -> nat -> F).

Fixpoint walk (t : btree F) (p : nat) : list bool :=
  match t with
  | Leaf _ => []
  | Fork v r i o => if nleb (dist v p) r then false :: walk i p else true :: walk o p
  end.
Fixpoint leaf_at (t : btree F) (path : list bool) : list nat :=
  match t, path with
  | Leaf pts, _ => pts
  | Fork _ _ i o, b :: path => leaf_at (if b then o else i) path
  | Fork _ _ _ _, [] => []
  end.

Lemma region_walk k vp t p : full k t -> length vp + 1 = 2 ^ k -> heap_order vp 0 t ->
  length (walk t p) = k /\ region dist vp p = Some (num (walk t p)).
Proof.
  intros Hb Hk Hh. unfold region.
  assert (G : forall k t, full k t -> forall pre n fuel, k <= fuel -> n = 2 ^ length pre - 1 + num pre ->
    length vp + 1 = 2 ^ (length pre + k) -> heap_order vp n t ->
    length (walk t p) = k /\ region_loop fuel dist vp p n = Some (num (pre ++ walk t p))).
  { clear. intros k. induction k as [|k IH]; intros [pts|v r i o] Hf pre n fuel Hfuel -> Hl Hh; cbn [full] in Hf; try tauto.
    - split; auto. cbn in Hh. rewrite Nat.add_0_r in Hl. cbn [walk].
      destruct fuel; cbn [region_loop]; rewrite Hh, app_nil_r; f_equal; lia.
    - destruct Hf as [Hi Ho]. destruct Hh as (E & Ei & Eo). destruct fuel as [|fuel]; [lia|]. pose proof (pow2_pos (length pre)).
      cbn [region_loop]. rewrite E. cbn [b_pt b_r walk]. destruct (nleb (dist v p) r).
      + destruct (IH i Hi (pre ++ [false]) (2 * (2 ^ length pre - 1 + num pre) + 1) fuel) as [L R]; auto; try lia.
        { rewrite num_snoc, app_length. cbn [length]. rewrite (Nat.add_1_r (length pre)), Nat.pow_succ_r'. lia. }
        { rewrite app_length. cbn [length]. rewrite <- Nat.add_assoc. exact Hl. }
        split; [cbn; lia|]. rewrite R, <- app_assoc. reflexivity.
      + destruct (IH o Ho (pre ++ [true]) (2 * (2 ^ length pre - 1 + num pre) + 2) fuel) as [L R]; auto; try lia.
        { rewrite num_snoc, app_length. cbn [length]. rewrite (Nat.add_1_r (length pre)), Nat.pow_succ_r'. lia. }
        { rewrite app_length. cbn [length]. rewrite <- Nat.add_assoc. exact Hl. }
        split; [cbn; lia|]. rewrite R, <- app_assoc. reflexivity. }
  apply (G k t Hb [] 0 (length vp)); auto. pose proof (pow2_gt k). lia.
Qed.

Lemma leaf_sizes k : forall pts t path, shape dist k pts t -> full k t -> length path = k ->
  let s := length (leaf_at t path) + 1 in let n := length pts + 1 in
  n <= 2 ^ k * s + (2 ^ k - 1) /\ 2 ^ k * s <= n + (2 ^ k - 1).
Proof.
  induction k as [|k IH]; intros pts t path Hs Hf Hp; cbv zeta.
  - inversion Hs; subst; cbn [leaf_at Nat.pow]; lia.
  - destruct path as [|b path]; [discriminate|]. injection Hp as Hp.
    inversion Hs as [? ? ?|? v r i o ti to H1 H2 H2' H3 H4 Hi Ho]; subst; [destruct Hf|]. destruct Hf as [Fi Fo].
    cbn [leaf_at length]. rewrite app_length. rewrite Nat.pow_succ_r'. pose proof (pow2_pos (length path)).
    destruct b; [specialize (IH _ _ path Ho Fo eq_refl)|specialize (IH _ _ path Hi Fi eq_refl)]; cbv zeta in IH; nia.
Qed.

Definition same (p q : list bool) : bool := if list_eq_dec Bool.bool_dec p q then true else false.
Lemma same_cons b p c q : same (b :: p) (c :: q) = Bool.eqb b c && same p q.
Proof.
  unfold same. destruct (list_eq_dec Bool.bool_dec (b :: p) (c :: q)) as [E|E], (list_eq_dec Bool.bool_dec p q) as [E'|E'];
    destruct b, c; cbn; try reflexivity; try congruence.
Qed.
Definition arrive (t : btree F) (path : list bool) (pts : list nat) : nat := length (filter (fun p => same (walk t p) path) pts).
Lemma arrive_app t path a b : arrive t path (a ++ b) = arrive t path a + arrive t path b.
Proof. unfold arrive. rewrite filter_app, app_length. reflexivity. Qed.
Lemma arrive_ext t path t' path' l :
  (forall p, In p l -> same (walk t p) path = same (walk t' p) path') -> arrive t path l = arrive t' path' l.
Proof. intros H. unfold arrive. f_equal. apply filter_ext_in. exact H. Qed.

Definition ins (path : list bool) : nat := count_occ Bool.bool_dec path false.
Definition outs (path : list bool) : nat := count_occ Bool.bool_dec path true.
Lemma ins_outs path : ins path + outs path = length path.
Proof. unfold ins, outs. induction path as [|[] p IH]; [reflexivity| |]; cbn in *; lia. Qed.

(** At most one element satisfies [P] *)
Lemma at_most_one (P : nat -> bool) l : NoDup l -> (forall p q, In p l -> In q l -> P p = true -> P q = true -> p = q) ->
  length (filter P l) <= 1.
Proof.
  intros Hn H. destruct (filter P l) as [|a [|b m]] eqn:E; cbn; [lia|lia|exfalso].
  assert (Ha : In a (filter P l)) by (rewrite E; left; reflexivity).
  assert (Hb : In b (filter P l)) by (rewrite E; right; left; reflexivity).
  apply filter_In in Ha as [Ha Pa], Hb as [Hb Pb].
  assert (NoDup (filter P l)) as Hd by (apply NoDup_filter; exact Hn). rewrite E in Hd. inversion Hd as [|? ? Hni]; subst.
  apply Hni. left. symmetry. apply H; auto.
Qed.
Lemma filter_split {A} (P Q : A -> bool) l :
  length (filter P l) = length (filter (fun x => P x && Q x) l) + length (filter (fun x => P x && negb (Q x)) l).
Proof. induction l as [|x l IH]; [reflexivity|]. cbn [filter]. destruct (P x), (Q x); cbn [andb negb length]; lia. Qed.
Lemma filter_len_le {A} (P Q : A -> bool) l : (forall x, In x l -> P x = true -> Q x = true) ->
  length (filter P l) <= length (filter Q l).
Proof.
  intros H. induction l as [|x l IH]; [reflexivity|]. cbn [filter].
  assert (length (filter P l) <= length (filter Q l)) by (apply IH; intros; apply H; auto; right; auto).
  destruct (P x) eqn:E; [rewrite (H x (or_introl eq_refl) E); cbn; lia|]. destruct (Q x); cbn; lia.
Qed.

Lemma nodup_app {A} (a b : list A) : NoDup (a ++ b) -> NoDup a /\ NoDup b.
Proof.
  induction a as [|x a IH]; cbn; intros H; [split; [constructor|exact H]|]. inversion H as [|? ? Hx Hn]; subst. destruct (IH Hn).
  split; auto. constructor; auto. intros Hi. apply Hx. apply in_or_app. auto.
Qed.

Section Points.
Context (n : nat) (HD : forall i j, i < n -> j < n -> D (dist i j)) (Hself : nearest_to_itself n dist) (Hgen : general_position n dist).

Lemma share k : forall pts t path, shape dist k pts t -> full k t -> length path = k -> NoDup pts -> (forall p, In p pts -> p < n) ->
  length (leaf_at t path) <= arrive t path pts + outs path /\ arrive t path pts <= length (leaf_at t path) + 2 * ins path.
Proof.
  induction k as [|k IH]; intros pts t path Hs Hf Hp Hnd Hlt.
  - destruct path; [|discriminate]. inversion Hs; subst. cbn [leaf_at ins outs count_occ]. unfold arrive. cbn [walk].
    assert (E : forall l : list nat, filter (fun _ => same [] []) l = l) by (intros l; induction l as [|x l IHl]; [reflexivity|cbn in *; congruence]).
    rewrite E. lia.
  - destruct path as [|b path]; [discriminate|]. injection Hp as Hp.
    inversion Hs as [? ? ?|? v r i o ti to H1 H2 H2' H3 H4 Hi Ho]; subst; [destruct Hf|]. destruct Hf as [Fi Fo].
    inversion Hnd as [|? ? Hv Hnd']; subst. destruct (nodup_app _ _ Hnd') as [Ni No].
    assert (Li : forall p, In p i -> p < n) by (intros p Hin; apply Hlt; right; apply in_or_app; auto).
    assert (Lo : forall p, In p o -> p < n) by (intros p Hin; apply Hlt; right; apply in_or_app; auto).
    assert (Lv : v < n) by (apply Hlt; left; reflexivity).
    destruct H2' as (med & Hmed & Hr). pose proof (Lo med Hmed) as Lm.
    destruct Hord as [[Htot Htr] _].
    (* the vantage point and the inside points go inside; of the outside points at most one does *)
    assert (Ev : nleb (dist v v) r = true) by (rewrite Hr; apply Hself; assumption).
    assert (Eo : length (filter (fun p => nleb (dist v p) r) o) <= 1).
    { apply at_most_one; [exact No|]. intros p q Hpo Hqo Ep Eq.
      assert (Dr : D r) by (rewrite Hr; apply HD; auto).
      apply (Hgen v p q); auto; try (intros ->; apply Hv; apply in_or_app; auto).
      - apply (Htr _ r); auto; apply HD; auto.
      - apply (Htr _ r); auto; apply HD; auto. }
    set (t := Fork v r ti to).
    replace (arrive t (b :: path) (v :: i ++ o)) with (arrive t (b :: path) [v] + (arrive t (b :: path) i + arrive t (b :: path) o))
      by (rewrite <- !arrive_app; reflexivity).
    assert (El : leaf_at t (b :: path) = leaf_at (if b then to else ti) path) by reflexivity. rewrite El. clear El. destruct b; cbv iota.
    + replace (outs (true :: path)) with (S (outs path)) by reflexivity. replace (ins (true :: path)) with (ins path) by reflexivity.
      assert (E1 : arrive t (true :: path) [v] = 0).
      { unfold arrive, t. cbn [filter walk]. rewrite Ev, same_cons. reflexivity. }
      assert (E2 : arrive t (true :: path) i = 0).
      { unfold arrive, t. rewrite (filter_ext_in _ (fun _ => false)); [clear; induction i; auto|].
        intros p Hin. cbn [walk]. rewrite (H1 p Hin), same_cons. reflexivity. }
      destruct (IH o to path Ho Fo eq_refl No Lo) as [A B].
      assert (E3 : arrive t (true :: path) o = length (filter (fun p => same (walk to p) path && negb (nleb (dist v p) r)) o)).
      { unfold arrive, t. f_equal. apply filter_ext. intros p. cbn [walk].
        destruct (nleb (dist v p) r); rewrite same_cons; cbn [Bool.eqb negb andb]; rewrite ?andb_true_r, ?andb_false_r; reflexivity. }
      pose proof (filter_split (fun p => same (walk to p) path) (fun p => nleb (dist v p) r) o) as E4.
      change (length (filter (fun p => same (walk to p) path) o)) with (arrive to path o) in E4.
      pose proof (filter_len_le (fun p => same (walk to p) path && nleb (dist v p) r) (fun p => nleb (dist v p) r) o) as E5.
      assert (E6 : length (filter (fun p => same (walk to p) path && nleb (dist v p) r) o) <= 1).
      { etransitivity; [apply E5|exact Eo]. intros p _ Hb. apply andb_prop in Hb. tauto. }
      clear E5. cbv beta in E4. rewrite E1, E2, E3. lia.
    + replace (outs (false :: path)) with (outs path) by reflexivity. replace (ins (false :: path)) with (S (ins path)) by reflexivity.
      destruct (IH i ti path Hi Fi eq_refl Ni Li) as [A B].
      assert (E1 : arrive t (false :: path) [v] <= 1).
      { unfold arrive. cbn [filter]. destruct (same (walk t v) (false :: path)); cbn; lia. }
      assert (E2 : arrive t (false :: path) i = arrive ti path i).
      { apply arrive_ext. intros p Hin. unfold t. cbn [walk]. rewrite (H1 p Hin), same_cons. reflexivity. }
      assert (E3 : arrive t (false :: path) o <= 1).
      { etransitivity; [|exact Eo]. apply filter_len_le. intros p _ Hb. unfold t in Hb. cbn [walk] in Hb.
        destruct (nleb (dist v p) r); auto. }
      lia.
Qed.

Lemma share_fair k pts t path : shape dist k pts t -> full k t -> length path = k -> NoDup pts -> (forall p, In p pts -> p < n) ->
  fair_share (length pts) k (arrive t path pts).
Proof.
  intros Hs Hf Hp Hnd Hlt. destruct (share k pts t path Hs Hf Hp Hnd Hlt) as [A B].
  destruct (leaf_sizes k pts t path Hs Hf Hp) as [C E]. pose proof (ins_outs path) as I. rewrite Hp in I. pose proof (pow2_pos k) as K.
  set (s := length (leaf_at t path)) in *. set (c := arrive t path pts) in *.
  assert (X : (length pts + 1) / 2 ^ k <= s + 1).
  { apply Nat.lt_succ_r. apply Nat.div_lt_upper_bound; [lia|]. nia. }
  assert (Y : s <= length pts / 2 ^ k).
  { apply Nat.div_le_lower_bound; [lia|]. nia. }
  unfold fair_share. lia.
Qed.
End Points.

(** If all distances are equal everything ends in the first region *)
Lemma walk_equal t p : (forall i j, dist i j = dist 0 0) -> D (dist 0 0) ->
  forall k pts, shape dist k pts t -> num (walk t p) = 0.
Proof.
  intros He HD0. destruct Hord as [[Htot _] _]. induction t as [l|v r i IHi o IHo]; intros k pts Hs; [reflexivity|].
  inversion Hs as [|? ? ? ? ? ? ? H1 H2 (med & Hmed & Hr) H3 H4 Hi Ho]; subst. cbn [walk].
  assert (E : nleb (dist v p) (dist v med) = true) by (rewrite (He v p), (He v med); destruct (Htot _ _ HD0 HD0); auto).
  rewrite E, num_cons. exact (IHi _ _ Hi).
Qed.
End Walk.
