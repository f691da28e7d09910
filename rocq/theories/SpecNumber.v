(** What the text of a number means, and what is known about how Rust prints numbers. *)
From Coq Require Import List Ascii NArith ZArith Reals.
From Flocq Require Import Core.Core IEEE754.BinarySingleNaN.
From Verif Require Import Base Num SpecText B64Proofs SpecRounding.
Import ListNotations.

Definition digits (ds : list ascii) : Prop := Forall decimal_digit ds.

(** an optional sign *)
Inductive signed : bool -> list ascii -> Prop :=
| signed_none : signed false []
| signed_plus : signed false ["+"%char]
| signed_minus : signed true ["-"%char].
(** digits with an optional decimal point; [i] before and [f] after it *)
Inductive pointed (i f : list ascii) : list ascii -> Prop :=
| pointed_none : f = [] -> pointed i f i
| pointed_some : pointed i f (i ++ "."%char :: f).
(** an optional exponent *)
Inductive scaled_by : Z -> list ascii -> Prop :=
| scaled_none : scaled_by 0 []
| scaled_some c neg s ds : In c ["e"; "E"]%char -> signed neg s -> ds <> [] -> digits ds ->
    scaled_by (if neg then - Z.of_N (decimal_value ds) else Z.of_N (decimal_value ds))%Z (c :: s ++ ds).

(** [t] is a decimal number with value [v]; [neg]: it is written with a minus sign *)
Definition decimal_number (neg : bool) (v : R) (t : list ascii) : Prop :=
  exists s i f m k x, t = s ++ m ++ x /\ signed neg s /\ digits i /\ digits f /\ i ++ f <> [] /\ pointed i f m /\ scaled_by k x /\
    v = ((if neg then -1 else 1) * IZR (Z.of_N (decimal_value (i ++ f))) * powerRZ 10 (k - Z.of_nat (length f)))%R.

(** The double nearest to [v], which is zero or infinite only with the sign that was written. *)
Definition nearest_double (neg : bool) (v : R) (x : B64) : Prop :=
  if Rlt_bool (Rabs (b64_rnd v)) (bpow radix2 1024)
  then b64_fin x /\ b64_val x = b64_rnd v /\ sign_SF x = neg
  else x = SpecFloat.S754_infinity neg.

(** What is documented for [to_string] of a finite [f64] in Rust: the text is a decimal number
    without exponent which is read back as the same number. *)
Definition displays (show : B64 -> list ascii) : Prop :=
  forall x, b64_fin x -> exists s i f m v, show x = s ++ m /\ (s = [] \/ s = ["-"%char]) /\ digits i /\ digits f /\ i <> [] /\ pointed i f m /\
    decimal_number (sign_SF x) v (show x) /\ b64_rnd v = b64_val x.

(** How far the sum of the weights may move by resampling [n] events with binary64 numbers, if the
    absolute values of the weights add up to [size]: at most [n] cells of at most [n] events each. *)
Definition rounding_error (n : nat) (size : R) : R :=
  (rounding (n * (n + 1)) * size + (1 + rounding (n * (n + 1))) * (INR (n * n) * half_ulp_min))%R.
