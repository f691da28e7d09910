(** Lemmas about sums of reals. *)
From Coq Require Import Reals Lra Psatz.
From Verif Require Import Base BaseProofs Num SpecWeights.
Set Implicit Arguments.
Local Open Scope R_scope.

Lemma Rsum_app l1 l2 : Rsum (l1 ++ l2) = Rsum l1 + Rsum l2.
Proof. unfold Rsum. induction l1 as [|a t IH]; cbn; [lra|]. rewrite IH. lra. Qed.

Lemma Rsum_perm l1 l2 : Permutation l1 l2 -> Rsum l1 = Rsum l2.
Proof. unfold Rsum. induction 1; cbn; lra. Qed.

Lemma fold_left_Rplus l a : fold_left Rplus l a = a + Rsum l.
Proof.
  revert a. unfold Rsum. induction l as [|x t IH]; intros a; cbn; [lra|]. rewrite IH. lra.
Qed.

Lemma nsum_RN (l : list RN) : nsum l = Rsum l.
Proof. unfold nsum. cbn. rewrite fold_left_Rplus. lra. Qed.

Lemma Rsum_map_ext A (f g : A -> R) l :
  (forall x, In x l -> f x = g x) -> Rsum (map f l) = Rsum (map g l).
Proof. intros H. f_equal. apply map_ext_in. exact H. Qed.

Lemma Rsum_map_plus A (f g : A -> R) l :
  Rsum (map (fun x => f x + g x) l) = Rsum (map f l) + Rsum (map g l).
Proof. unfold Rsum. induction l as [|a t IH]; cbn; [lra|]. rewrite IH. lra. Qed.

Lemma Rsum_map_scal A (f : A -> R) c l :
  Rsum (map (fun x => c * f x) l) = c * Rsum (map f l).
Proof. unfold Rsum. induction l as [|a t IH]; cbn; [lra|]. rewrite IH. lra. Qed.

Lemma Rsum_map_scal_r A (f : A -> R) c l :
  Rsum (map (fun x => f x * c) l) = Rsum (map f l) * c.
Proof. unfold Rsum. induction l as [|a t IH]; cbn; [lra|]. rewrite IH. lra. Qed.

Lemma Rsum_map_const A (c : R) (l : list A) : Rsum (map (fun _ => c) l) = INR (length l) * c.
Proof.
  unfold Rsum. induction l as [|a t IH]; [cbn; lra|].
  cbn [map fold_right length]. rewrite IH, S_INR. lra.
Qed.

Lemma Rsum_map_le A (f g : A -> R) l :
  (forall x, In x l -> f x <= g x) -> Rsum (map f l) <= Rsum (map g l).
Proof.
  unfold Rsum. induction l as [|a t IH]; cbn; intros H; [lra|].
  specialize (H a (or_introl eq_refl)) as Ha. specialize (IH (fun x Hx => H x (or_intror Hx))). lra.
Qed.

Lemma Rsum_nonneg l : (forall x, In x l -> 0 <= x) -> 0 <= Rsum l.
Proof.
  unfold Rsum. induction l as [|a t IH]; cbn; intros H; [lra|].
  pose proof (H a (or_introl eq_refl)). specialize (IH (fun x Hx => H x (or_intror Hx))). lra.
Qed.

Lemma Rsum_split A (p : A -> bool) (f : A -> R) l :
  Rsum (map f l) = Rsum (map f (filter p l)) + Rsum (map f (filter (fun x => negb (p x)) l)).
Proof.
  unfold Rsum. induction l as [|a t IH]; cbn; [lra|]. destruct (p a); cbn; lra.
Qed.

Lemma Rabs_Rsum l : Rabs (Rsum l) <= Rsum (map Rabs l).
Proof.
  unfold Rsum. induction l as [|a t IH]; cbn; [rewrite Rabs_R0; lra|].
  pose proof (Rabs_triang a (fold_right Rplus 0 t)). lra.
Qed.

(** A sum over all indices of a list, as a sum over the list. *)
Lemma Rsum_by_index A (d : A) (f : A -> R) (l : list A) :
  Rsum (map f l) = Rsum (map (fun i => f (nth i l d)) (seq 0 (length l))).
Proof.
  induction l as [|a t IH]; [reflexivity|].
  cbn [length seq map nth]. change (Rsum (?x :: ?y)) with (x + Rsum y).
  rewrite <- seq_shift, map_map. f_equal. exact IH.
Qed.

(** If two index functions agree outside a duplicate-free list [m] of indices below [n],
    the difference of their sums is the difference over [m]. *)
Lemma Rsum_change (n : nat) (m : list nat) (f g : nat -> R) :
  NoDup m -> (forall i, In i m -> (i < n)%nat) -> (forall i, ~ In i m -> f i = g i) ->
  Rsum (map f (seq 0 n)) - Rsum (map f m) = Rsum (map g (seq 0 n)) - Rsum (map g m).
Proof.
  intros Hnd Hlt Heq.
  set (p := fun i => existsb (Nat.eqb i) m).
  assert (Hp : forall i, p i = true <-> In i m).
  { intros i. unfold p. rewrite existsb_exists. split.
    - intros (x & Hx & E). apply Nat.eqb_eq in E. congruence.
    - intros H. exists i. split; auto. apply Nat.eqb_refl. }
  rewrite (Rsum_split p f), (Rsum_split p g).
  assert (Hperm : Permutation (filter p (seq 0 n)) m).
  { apply NoDup_Permutation; auto.
    - apply NoDup_filter, seq_NoDup.
    - intros x. rewrite filter_In, in_seq, Hp. intuition (auto with arith). }
  rewrite (Rsum_perm (Permutation_map f Hperm)), (Rsum_perm (Permutation_map g Hperm)).
  rewrite (Rsum_map_ext f g (filter (fun x => negb (p x)) (seq 0 n))).
  - lra.
  - intros x Hx. apply filter_In in Hx. destruct Hx as [_ Hx].
    apply Heq. intros H. apply Hp in H. rewrite H in Hx. discriminate.
Qed.

Lemma Rsum_cons a l : Rsum (a :: l) = a + Rsum l.
Proof. reflexivity. Qed.

Lemma Rsum_nil : Rsum [] = 0.
Proof. reflexivity. Qed.

Global Arguments Rsum : simpl never.
