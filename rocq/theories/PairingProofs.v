(** Optimal pairings of two lists of points of a pseudometric space, the shorter list
    filled up with a distinguished point. *)
From Coq Require Import Reals Lra.
From Verif Require Import Base BaseProofs Num SpecWeights SumProofs PermProofs.
Set Implicit Arguments.
Local Open Scope R_scope.

Section Pairing.
Context {A : Type} (d : A -> A -> R) (z : A).

Definition cost (L : list (A * A)) : R := Rsum (map (fun pq => d (fst pq) (snd pq)) L).
Definition pairing (P Q : list A) (L : list (A * A)) : Prop :=
  Permutation (map fst L) P /\ Permutation (map snd L) Q.
Definition ismin (P Q : list A) (v : R) : Prop :=
  (exists L, pairing P Q L /\ v = cost L) /\ (forall L, pairing P Q L -> v <= cost L).
Definition fil (n : nat) (P : list A) : list A := P ++ repeat z (n - length P).
Definition mp (P Q : list A) (v : R) : Prop :=
  let n := Nat.max (length P) (length Q) in ismin (fil n P) (fil n Q) v.

Lemma cost_cons p q L : cost ((p, q) :: L) = d p q + cost L.
Proof. unfold cost. cbn. rewrite Rsum_cons. auto. Qed.
Lemma cost_nil : cost [] = 0.
Proof. unfold cost. cbn. apply Rsum_nil. Qed.
Lemma cost_perm L L' : Permutation L L' -> cost L = cost L'.
Proof. intros H. apply Rsum_perm, Permutation_map, H. Qed.

Lemma pairing_perm P Q L P' Q' : Permutation P P' -> Permutation Q Q' -> pairing P Q L -> pairing P' Q' L.
Proof. intros H1 H2 [H3 H4]. split; etransitivity; eauto. Qed.

Lemma ismin_perm P Q v P' Q' : Permutation P P' -> Permutation Q Q' -> ismin P Q v -> ismin P' Q' v.
Proof.
  intros H1 H2 [(L & HL & E) Hmin]. split.
  - exists L. split; auto. eapply pairing_perm; eauto.
  - intros L' HL'. apply Hmin. eapply pairing_perm; [symmetry; eauto|symmetry; eauto|auto].
Qed.

Lemma ismin_unique P Q v v' : ismin P Q v -> ismin P Q v' -> v = v'.
Proof. intros [(L & HL & E) H] [(L' & HL' & E') H']. apply Rle_antisym; subst; auto. Qed.

Lemma map_fst_combine (P Q : list A) : length P = length Q -> map fst (combine P Q) = P.
Proof. revert Q. induction P; intros [|q Q] H; cbn in *; try discriminate; auto. f_equal. auto. Qed.
Lemma map_snd_combine (P Q : list A) : length P = length Q -> map snd (combine P Q) = Q.
Proof. revert Q. induction P; intros [|q Q] H; cbn in *; try discriminate; auto. f_equal. auto. Qed.
Lemma combine_map (L : list (A * A)) : combine (map fst L) (map snd L) = L.
Proof. induction L as [|[a b] L IH]; cbn; congruence. Qed.

Lemma combine_pairing (P Q P' : list A) : length P = length Q -> Permutation P P' -> pairing P Q (combine P' Q).
Proof.
  intros E H. pose proof (Permutation_length H). split.
  - rewrite map_fst_combine by congruence. symmetry; auto.
  - rewrite map_snd_combine by congruence. auto.
Qed.

Lemma pairing_combine P Q L : pairing P Q L -> exists P', Permutation P P' /\ Permutation L (combine P' Q).
Proof.
  intros [H1 H2]. symmetry in H2. apply Permutation_map_inv in H2. destruct H2 as (L' & -> & H).
  exists (map fst L'). rewrite combine_map. split; auto. rewrite <- H1. apply Permutation_map. auto.
Qed.

Lemma ismin_combine P Q v : length P = length Q ->
  ismin P Q v <-> (exists P', Permutation P P' /\ v = cost (combine P' Q)) /\
                  (forall P', Permutation P P' -> v <= cost (combine P' Q)).
Proof.
  intros E. split; intros [H1 H2].
  - split.
    + destruct H1 as (L & HL & ->). destruct (pairing_combine HL) as (P' & HP & HL').
      exists P'. split; auto. apply cost_perm; auto.
    + intros P' HP. apply H2. apply combine_pairing; auto.
  - split.
    + destruct H1 as (P' & HP & ->). exists (combine P' Q). split; auto. apply combine_pairing; auto.
    + intros L HL. destruct (pairing_combine HL) as (P' & HP & HL'). rewrite (cost_perm HL'). auto.
Qed.

(** The minimum exists. *)
Definition minv0 (P Q : list A) : R :=
  fold_right Rmin (cost (combine P Q)) (map (fun P' => cost (combine P' Q)) (perms P)).

Lemma fold_min x l : (fold_right Rmin x l = x \/ In (fold_right Rmin x l) l) /\
  forall y, y = x \/ In y l -> fold_right Rmin x l <= y.
Proof.
  induction l as [|a l [IH1 IH2]]; cbn.
  - split; auto. intros y [->|[]]. lra.
  - set (m := fold_right Rmin x l) in *.
    destruct (Rle_dec a m) as [Hle|Hgt]; [rewrite (Rmin_left a m) by lra|rewrite (Rmin_right a m) by lra]; split; auto.
    + intros y [->|[<-|H]]; [eapply Rle_trans; [exact Hle|]; auto|lra|eapply Rle_trans; [exact Hle|]; auto].
    + tauto.
    + intros y [->|[<-|H]]; auto; lra.
Qed.

Lemma minv0_spec P Q : length P = length Q -> ismin P Q (minv0 P Q).
Proof.
  intros E. apply ismin_combine; auto. unfold minv0.
  destruct (fold_min (cost (combine P Q)) (map (fun P' => cost (combine P' Q)) (perms P))) as [H1 H2]. split.
  - destruct H1 as [->|H1]; [exists P; auto|]. apply in_map_iff in H1. destruct H1 as (P' & H1 & H3).
    exists P'. split; auto. apply perms_sound; auto.
  - intros P' HP. apply H2. right. apply in_map_iff. exists P'. split; auto. apply perms_complete; auto.
Qed.

Lemma fil_len n P : (length P <= n)%nat -> length (fil n P) = n.
Proof. intros H. unfold fil. rewrite app_length, repeat_length. lia. Qed.

Lemma fil_perm n P P' : Permutation P P' -> Permutation (fil n P) (fil n P').
Proof. intros H. unfold fil. rewrite (Permutation_length H). apply Permutation_app_tail, H. Qed.

Lemma fil_S n P : (length P <= n)%nat -> Permutation (fil (S n) P) (z :: fil n P).
Proof.
  intros H. unfold fil. replace (S n - length P)%nat with (S (n - length P)) by lia. cbn [repeat].
  symmetry. apply Permutation_middle.
Qed.

Definition minv (P Q : list A) : R :=
  let n := Nat.max (length P) (length Q) in minv0 (fil n P) (fil n Q).

Lemma minv_spec P Q : mp P Q (minv P Q).
Proof. unfold mp, minv. apply minv0_spec. rewrite !fil_len; lia. Qed.

Lemma mp_unique P Q v v' : mp P Q v -> mp P Q v' -> v = v'.
Proof. apply ismin_unique. Qed.

Lemma mp_minv P Q v : mp P Q v -> v = minv P Q.
Proof. intros H. eapply mp_unique; [exact H|apply minv_spec]. Qed.

Lemma mp_perm P Q v P' Q' : Permutation P P' -> Permutation Q Q' -> mp P Q v -> mp P' Q' v.
Proof.
  intros H1 H2. unfold mp. rewrite <- (Permutation_length H1), <- (Permutation_length H2).
  apply ismin_perm; apply fil_perm; auto.
Qed.

Lemma minv_perm P Q P' Q' : Permutation P P' -> Permutation Q Q' -> minv P Q = minv P' Q'.
Proof. intros H1 H2. apply mp_minv. eapply mp_perm; eauto. apply minv_spec. Qed.

(** *** Pseudometric *)
Hypothesis d_nonneg : forall p q, 0 <= d p q.
Hypothesis d_refl : forall p, d p p = 0.
Hypothesis d_sym : forall p q, d p q = d q p.
Hypothesis d_tri : forall p q r, d p r <= d p q + d q r.

Lemma cost_nonneg L : 0 <= cost L.
Proof. induction L as [|[p q] L IH]; [rewrite cost_nil; lra|]. rewrite cost_cons. specialize (d_nonneg p q). lra. Qed.

(** Filling points on both sides can be taken away. *)
Lemma unpad P Q L : pairing (z :: P) (z :: Q) L -> exists L', pairing P Q L' /\ cost L' <= cost L.
Proof.
  intros [H1 H2].
  assert (Hz : In z (map fst L)) by (eapply Permutation_in; [symmetry; exact H1|left; auto]).
  apply in_map_iff in Hz. destruct Hz as ([z' q] & E & Hz). cbn in E. subst z'.
  apply in_split in Hz. destruct Hz as (L1 & L2 & ->).
  pose proof (Permutation_middle L1 L2 (z, q)) as Hp. symmetry in Hp.
  rewrite (cost_perm Hp), cost_cons. revert H1 H2. rewrite Hp. clear Hp.
  generalize (L1 ++ L2) as K. clear L1 L2. intros K H1 H2. cbn in H1, H2.
  apply Permutation_cons_inv in H1.
  assert (Hz : In z (q :: map snd K)) by (eapply Permutation_in; [symmetry; exact H2|left; auto]).
  destruct Hz as [->|Hz].
  - exists K. apply Permutation_cons_inv in H2. split; [split; auto|]. specialize (d_nonneg z z). lra.
  - apply in_map_iff in Hz. destruct Hz as ([p z'] & E & Hz). cbn in E. subst z'.
    apply in_split in Hz. destruct Hz as (L1 & L2 & ->).
    pose proof (Permutation_middle L1 L2 (p, z)) as Hp. symmetry in Hp.
    rewrite (cost_perm Hp), cost_cons. revert H1 H2. rewrite Hp. clear Hp.
    generalize (L1 ++ L2) as M. clear L1 L2. intros M H1 H2. cbn in H1, H2.
    rewrite perm_swap in H2. apply Permutation_cons_inv in H2.
    exists ((p, q) :: M). split; [split; auto|]. rewrite cost_cons. specialize (d_tri p z q). lra.
Qed.

Lemma ismin_pad P Q v : ismin P Q v <-> ismin (z :: P) (z :: Q) v.
Proof.
  assert (Hadd : forall L, pairing P Q L -> pairing (z :: P) (z :: Q) ((z, z) :: L) /\ cost ((z, z) :: L) = cost L).
  { intros L [H1 H2]. split; [split; cbn; constructor; auto|]. rewrite cost_cons, d_refl. lra. }
  split; intros [(L & HL & ->) Hmin].
  - split.
    + exists ((z, z) :: L). destruct (Hadd L HL). auto.
    + intros L' HL'. destruct (unpad HL') as (L'' & H1 & H2). specialize (Hmin _ H1). lra.
  - split.
    + destruct (unpad HL) as (L' & H1 & H2). exists L'. split; auto. destruct (Hadd L' H1) as [H3 H4].
      specialize (Hmin _ H3). lra.
    + intros L' HL'. destruct (Hadd L' HL') as [H3 H4]. specialize (Hmin _ H3). lra.
Qed.

Lemma ismin_fil P Q v n k : (length P <= n)%nat -> (length Q <= n)%nat ->
  ismin (fil n P) (fil n Q) v <-> ismin (fil (k + n) P) (fil (k + n) Q) v.
Proof.
  intros H1 H2. induction k as [|k IH]; [tauto|]. rewrite IH. cbn [Nat.add].
  rewrite ismin_pad. split; apply ismin_perm; try apply fil_S; try (symmetry; apply fil_S); lia.
Qed.

(** Hence any common length will do. *)
Lemma mp_fil P Q v n : (length P <= n)%nat -> (length Q <= n)%nat ->
  mp P Q v <-> ismin (fil n P) (fil n Q) v.
Proof.
  intros H1 H2. unfold mp. set (m := Nat.max (length P) (length Q)).
  replace n with ((n - m) + m)%nat by lia. apply ismin_fil; lia.
Qed.

Lemma compose P Q S L1 L2 : pairing P Q L1 -> pairing Q S L2 ->
  exists L3, pairing P S L3 /\ cost L3 <= cost L1 + cost L2.
Proof.
  intros [H1 H2] [H3 H4].
  assert (H : Permutation (map snd L1) (map fst L2)) by (rewrite H2; symmetry; auto).
  apply Permutation_map_inv in H. destruct H as (L2' & E & HL).
  exists (combine (map fst L1) (map snd L2')).
  assert (Hlen : length (map fst L1) = length (map snd L2')).
  { rewrite !map_length, <- (map_length snd L1), E, map_length. auto. }
  split; [split|].
  - rewrite map_fst_combine; auto.
  - rewrite map_snd_combine; auto. rewrite <- H4. apply Permutation_map. symmetry; auto.
  - rewrite (cost_perm HL). clear - E d_tri. revert L2' E.
    induction L1 as [|[p q] L1 IH]; intros [|[q' s] L2'] E; cbn in E; try discriminate; cbn [map combine fst snd].
    + rewrite cost_nil. lra.
    + injection E; intros E' <-. rewrite !cost_cons. specialize (IH _ E'). specialize (d_tri p q s). lra.
Qed.

Lemma mp_tri P Q S v1 v2 v3 : mp P Q v1 -> mp Q S v2 -> mp P S v3 -> v3 <= v1 + v2.
Proof.
  set (n := Nat.max (length P) (Nat.max (length Q) (length S))).
  rewrite (@mp_fil P Q v1 n), (@mp_fil Q S v2 n), (@mp_fil P S v3 n) by lia.
  intros [(L1 & H1 & ->) _] [(L2 & H2 & ->) _] [_ H3].
  destruct (compose H1 H2) as (L3 & H4 & H5). specialize (H3 _ H4). lra.
Qed.

Lemma cost_swap L : cost (map (fun pq => (snd pq, fst pq)) L) = cost L.
Proof. induction L as [|[p q] L IH]; auto. cbn [map fst snd]. rewrite !cost_cons, IH, d_sym. auto. Qed.

Lemma pairing_swap P Q L : pairing P Q L -> pairing Q P (map (fun pq => (snd pq, fst pq)) L).
Proof. intros [H1 H2]. split; rewrite map_map; cbn; auto. Qed.

Lemma ismin_sym P Q v : ismin P Q v -> ismin Q P v.
Proof.
  intros [(L & HL & ->) Hmin]. split.
  - exists (map (fun pq => (snd pq, fst pq)) L). rewrite cost_swap. split; auto. apply pairing_swap; auto.
  - intros L' HL'. rewrite <- (cost_swap L'). apply Hmin, pairing_swap, HL'.
Qed.

Lemma mp_sym P Q v : mp P Q v -> mp Q P v.
Proof. unfold mp. rewrite Nat.max_comm. apply ismin_sym. Qed.

Lemma mp_nonneg P Q v : mp P Q v -> 0 <= v.
Proof. intros [(L & _ & ->) _]. apply cost_nonneg. Qed.

Lemma mp_self P v : mp P P v -> v = 0.
Proof.
  intros H. apply Rle_antisym; [|eapply mp_nonneg; eauto]. destruct H as [_ H].
  specialize (H (map (fun p => (p, p)) (fil (Nat.max (length P) (length P)) P))).
  assert (E : forall l : list A, cost (map (fun p => (p, p)) l) = 0).
  { induction l as [|p l IH]; cbn [map]; [apply cost_nil|]. rewrite cost_cons, IH, d_refl. lra. }
  rewrite E in H. apply H. split; rewrite map_map; cbn; rewrite map_id; auto.
Qed.

Lemma mp_nil P : mp P [] (Rsum (map (fun p => d p z) P)).
Proof.
  unfold mp. cbn [length]. rewrite Nat.max_0_r. unfold fil. rewrite Nat.sub_diag, Nat.sub_0_r. cbn [repeat app].
  rewrite app_nil_r.
  assert (Hc : forall l, cost (combine l (repeat z (length l))) = Rsum (map (fun p => d p z) l)).
  { induction l as [|p l IH]; cbn [length repeat combine map]; [apply cost_nil|]. rewrite cost_cons, IH, Rsum_cons. auto. }
  apply ismin_combine; [rewrite repeat_length; auto|]. split.
  - exists P. auto.
  - intros P' HP. rewrite (Permutation_length HP), Hc. right. apply Rsum_perm, Permutation_map, HP.
Qed.

Lemma minv_nil P : minv P [] = Rsum (map (fun p => d p z) P).
Proof. symmetry. apply mp_minv, mp_nil. Qed.

Lemma minv_nil_l P : minv [] P = Rsum (map (fun p => d p z) P).
Proof. symmetry. apply mp_minv, mp_sym, mp_nil. Qed.

End Pairing.

(** Only the images under a map that determines the distances matter. *)
Section Image.
Context {A B : Type} (k : A -> B) (d : A -> A -> R) (e : B -> B -> R) (z : A) (y : B).
Hypothesis d_e : forall p q, d p q = e (k p) (k q).
Hypothesis z_y : k z = y.

Lemma cost_image L : cost d L = cost e (map (fun pq => (k (fst pq), k (snd pq))) L).
Proof. unfold cost. rewrite map_map. cbn. f_equal. apply map_ext. auto. Qed.

Lemma ismin_image P Q v : length P = length Q -> ismin d P Q v <-> ismin e (map k P) (map k Q) v.
Proof.
  intros E. assert (Hc : forall P' Q', cost d (combine P' Q') = cost e (combine (map k P') (map k Q'))).
  { intros P' Q'. rewrite cost_image. f_equal. clear. revert Q'. induction P'; intros [|q Q']; cbn; auto. f_equal. auto. }
  rewrite !ismin_combine by (rewrite ?map_length; auto). split; intros [(P' & H1 & ->) H2]; split.
  - exists (map k P'). split; auto. apply Permutation_map; auto.
  - intros P2 HP2. symmetry in HP2. apply Permutation_map_inv in HP2. destruct HP2 as (P3 & -> & HP3).
    rewrite <- Hc. auto.
  - symmetry in H1. apply Permutation_map_inv in H1. destruct H1 as (P3 & -> & HP3). exists P3. rewrite Hc. auto.
  - intros P2 HP2. rewrite Hc. apply H2, Permutation_map, HP2.
Qed.

Lemma fil_image n P : map k (fil z n P) = fil y n (map k P).
Proof.
  unfold fil. rewrite map_app, map_length. f_equal. subst y. generalize (n - length P)%nat. clear.
  induction n; cbn; congruence.
Qed.

Lemma mp_image P Q v : mp d z P Q v <-> mp e y (map k P) (map k Q) v.
Proof.
  unfold mp. rewrite !map_length, <- !fil_image. apply ismin_image. rewrite !fil_len; lia.
Qed.

Lemma minv_image P Q : minv d z P Q = minv e y (map k P) (map k Q).
Proof. apply mp_minv. apply mp_image, minv_spec. Qed.

End Image.
