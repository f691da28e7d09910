(** Numbers.  The code computes with [noisy_float::N64], a wrapper around [f64] that
    (in debug builds) panics when a NaN is produced.  The model is written once, over a
    record of operations (data only, no laws), and instantiated with exact reals, with
    reals rounded after every operation, and with IEEE-754 binary64. *)
From Coq Require Import Reals ZArith SpecFloat Lra.
From Verif Require Import Base.

Record NumOps := mkNum {
  num :> Type;
  n0 : num;
  n1 : num;
  nadd : num -> num -> num;
  nsub : num -> num -> num;
  nmul : num -> num -> num;
  ndiv : num -> num -> num;
  nopp : num -> num;
  nabs : num -> num;
  nsqrt : num -> num;
  nleb : num -> num -> bool;   (* a <= b *)
  nltb : num -> num -> bool;   (* a < b *)
  neqb : num -> num -> bool;   (* a == b *)
  nofnat : nat -> num          (* n as f64 *)
}.

Arguments n0 {_}. Arguments n1 {_}.
Arguments nadd {_}. Arguments nsub {_}. Arguments nmul {_}. Arguments ndiv {_}.
Arguments nopp {_}. Arguments nabs {_}. Arguments nsqrt {_}.
Arguments nleb {_}. Arguments nltb {_}. Arguments neqb {_}. Arguments nofnat {_}.

(** [Iterator::sum] on [N64]: a left fold from zero. *)
Definition nsum {N : NumOps} (l : list N) : N := fold_left nadd l n0.

(** *** Exact reals, and reals with a rounding function applied to every result. *)
Definition Rleb (a b : R) : bool := if Rle_dec a b then true else false.
Definition Rltb (a b : R) : bool := if Rlt_dec a b then true else false.
Definition Reqb (a b : R) : bool := if Req_EM_T a b then true else false.

Definition RRnd (rnd : R -> R) : NumOps := {|
  num := R; n0 := 0%R; n1 := 1%R;
  nadd a b := rnd (a + b)%R; nsub a b := rnd (a - b)%R;
  nmul a b := rnd (a * b)%R; ndiv a b := rnd (a / b)%R;
  nopp a := (- a)%R; nabs a := Rabs a; nsqrt a := rnd (sqrt a);
  nleb := Rleb; nltb := Rltb; neqb := Reqb;
  nofnat n := rnd (INR n) |}.

Definition RN : NumOps := {|
  num := R; n0 := 0%R; n1 := 1%R;
  nadd := Rplus; nsub := Rminus; nmul := Rmult; ndiv := Rdiv;
  nopp := Ropp; nabs := Rabs; nsqrt := sqrt;
  nleb := Rleb; nltb := Rltb; neqb := Reqb;
  nofnat := INR |}.

(** *** IEEE-754 binary64 (executable). *)
Definition prec64 : Z := 53%Z.
Definition emax64 : Z := 1024%Z.

Definition b64_of_Z (z : Z) : spec_float :=
  binary_normalize prec64 emax64 z 0 false.

Definition B64 : NumOps := {|
  num := spec_float;
  n0 := S754_zero false; n1 := b64_of_Z 1;
  nadd := SFadd prec64 emax64; nsub := SFsub prec64 emax64;
  nmul := SFmul prec64 emax64; ndiv := SFdiv prec64 emax64;
  nopp := SFopp; nabs := SFabs; nsqrt := SFsqrt prec64 emax64;
  nleb := SFleb; nltb := SFltb; neqb := SFeqb;
  nofnat n := b64_of_Z (Z.of_nat n) |}.

Definition b64_inf : B64 := S754_infinity false.

(** [f64::MAX] = (2^53 - 1) * 2^971 *)
Definition b64_max : B64 := S754_finite false (2 ^ 53 - 1)%positive 971.

(** Lets Coq infer the arithmetic from the carrier type. *)
Canonical Structure RN.
Canonical Structure B64.

(** *** Elementary facts relating the boolean comparisons on [R] to the usual order *)
Lemma Rleb_true a b : Rleb a b = true <-> (a <= b)%R.
Proof. unfold Rleb; destruct (Rle_dec a b); split; auto; discriminate. Qed.
Lemma Rleb_false a b : Rleb a b = false <-> (b < a)%R.
Proof. unfold Rleb; destruct (Rle_dec a b); split; auto; try discriminate; lra. Qed.
Lemma Rltb_true a b : Rltb a b = true <-> (a < b)%R.
Proof. unfold Rltb; destruct (Rlt_dec a b); split; auto; discriminate. Qed.
Lemma Rltb_false a b : Rltb a b = false <-> (b <= a)%R.
Proof. unfold Rltb; destruct (Rlt_dec a b); split; auto; try discriminate; lra. Qed.
Lemma Reqb_true a b : Reqb a b = true <-> a = b.
Proof. unfold Reqb; destruct (Req_EM_T a b); split; auto; discriminate. Qed.

(** A domain of numbers (for binary64: everything except NaN) on which the comparison is
    a total preorder and [<] is the negation of the reversed [<=]. *)
Definition order_on (N : NumOps) (D : N -> Prop) : Prop :=
  total_preorder_on D nleb /\
  (forall x y : N, D x -> D y -> nltb x y = negb (nleb y x)).

Lemma RN_order : order_on RN (fun _ => True).
Proof.
  repeat split; cbn; intros *.
  - intros _ _. rewrite !Rleb_true. lra.
  - intros _ _ _. rewrite !Rleb_true. lra.
  - intros _ _. destruct (Rleb y x) eqn:E; cbn.
    + apply Rleb_true in E. apply Rltb_false. exact E.
    + apply Rleb_false in E. apply Rltb_true. exact E.
Qed.

Definition not_nan (x : B64) : Prop := x <> S754_nan.

(** The position of a binary64 number in the lexicographic order on triples of integers. *)
Definition b64_key (x : spec_float) : Z * Z * Z :=
  match x with
  | S754_infinity true => (-2, 0, 0)
  | S754_finite true m e => (-1, - e, Z.neg m)
  | S754_zero _ => (0, 0, 0)
  | S754_finite false m e => (1, e, Z.pos m)
  | S754_infinity false => (2, 0, 0)
  | S754_nan => (3, 0, 0)
  end%Z.

Definition key_le (a b : Z * Z * Z) : Prop :=
  let '(a1, a2, a3) := a in let '(b1, b2, b3) := b in
  (a1 < b1 \/ (a1 = b1 /\ (a2 < b2 \/ (a2 = b2 /\ a3 <= b3))))%Z.

Lemma SFleb_key x y : x <> S754_nan -> y <> S754_nan ->
  SFleb x y = true <-> key_le (b64_key x) (b64_key y).
Proof.
  intros Hx Hy. unfold SFleb, SFcompare, key_le, b64_key in *.
  destruct x as [ [] | [] | | [] mx ex ]; destruct y as [ [] | [] | | [] my ey ];
    try congruence; cbv beta iota zeta;
    try (split; [intros; lia || discriminate | intros; reflexivity || lia]);
    destruct (Z.compare_spec ex ey) as [He|He|He]; try (split; [intros; lia || discriminate|intros; reflexivity || lia]);
    change (Pos.compare_cont Eq mx my) with (Pos.compare mx my); destruct (Pos.compare_spec mx my); cbv beta iota delta [CompOpp];
    (split; [intros; lia || discriminate|intros; reflexivity || lia]).
Qed.

Lemma SFltb_key x y : x <> S754_nan -> y <> S754_nan ->
  SFltb x y = true <-> ~ key_le (b64_key y) (b64_key x).
Proof.
  intros Hx Hy. unfold SFltb, SFcompare, key_le, b64_key in *.
  destruct x as [ [] | [] | | [] mx ex ]; destruct y as [ [] | [] | | [] my ey ];
    try congruence; cbv beta iota zeta;
    try (split; [intros; lia || discriminate | intros; reflexivity || lia]);
    destruct (Z.compare_spec ex ey) as [He|He|He]; try (split; [intros; lia || discriminate|intros; reflexivity || lia]);
    change (Pos.compare_cont Eq mx my) with (Pos.compare mx my); destruct (Pos.compare_spec mx my); cbv beta iota delta [CompOpp];
    (split; [intros; lia || discriminate|intros; reflexivity || lia]).
Qed.

Lemma B64_order : order_on B64 not_nan.
Proof.
  unfold order_on, total_preorder_on, not_nan. cbn [nleb nltb B64 num].
  split; [split|].
  - intros x y Hx Hy. rewrite !SFleb_key by assumption.
    destruct (b64_key x) as [[? ?] ?], (b64_key y) as [[? ?] ?]. cbn. lia.
  - intros x y z Hx Hy Hz. rewrite !SFleb_key by assumption.
    destruct (b64_key x) as [[? ?] ?], (b64_key y) as [[? ?] ?], (b64_key z) as [[? ?] ?].
    cbn. lia.
  - intros x y Hx Hy.
    destruct (SFltb x y) eqn:E1, (SFleb y x) eqn:E2; auto; exfalso.
    + apply SFltb_key in E1; auto. apply SFleb_key in E2; auto.
    + assert (~ key_le (b64_key y) (b64_key x)) as H.
      { rewrite <- SFleb_key; auto. congruence. }
      apply SFltb_key in H; auto. congruence.
Qed.
