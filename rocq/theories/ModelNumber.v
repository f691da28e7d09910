(** Model of the crate nom, [number::complete::double], as it is used in src/parsing.rs:9-11 and
    src/stripper_xml.rs:200, 560: [recognize_float_or_exceptions], then [str::parse::<f64>], which is
    documented to be correctly rounded.  The crate itself is not in /repo; this is its documented
    grammar. *)
From Verif Require Import Base Num ModelText.
From Coq Require Import SpecFloat.

(** *** Grammar *)
Definition is_digit (c : ascii) : bool := match digit c with Some _ => true | None => false end.
Record decimal := mkDecimal { d_neg : bool; d_int : text; d_frac : text; d_exp : Z }.

(** [opt(alt((char('+'), char('-'))))] *)
Definition sign (t : text) : bool * text :=
  match t with
  | c :: r => if ceq c "-" then (true, r) else if ceq c "+" then (false, r) else (false, t)
  | [] => (false, [])
  end.
(** [digit1] *)
Definition digit1 (t : text) : option (text * text) :=
  match span is_digit t with ([], _) => None | x => Some x end.
(** [alt((digit1, opt('.', opt(digit1))), ('.', digit1))] *)
Definition mantissa (t : text) : option (text * text * text) :=
  match digit1 t with
  | Some (i, r) =>
      match r with
      | c :: r' => if ceq c "." then match span is_digit r' with (f, r'') => Some (i, f, r'') end else Some (i, [], r)
      | [] => Some (i, [], [])
      end
  | None =>
      match t with
      | c :: r => if ceq c "." then match digit1 r with Some (f, r') => Some ([], f, r') | None => None end else None
      | [] => None
      end
  end.
Definition digits_value (ds : text) : N :=
  fold_left (fun v c => (v * 10 + match digit c with Some d => d | None => 0 end)%N) ds 0%N.
(** [opt((alt(('e', 'E')), opt(sign), cut(digit1)))]: without digits the whole parser fails *)
Definition exponent (t : text) : option (Z * text) :=
  match t with
  | c :: r =>
      if ceq c "e" || ceq c "E" then
        let '(neg, r) := sign r in
        match digit1 r with
        | Some (ds, r) => let v := Z.of_N (digits_value ds) in Some (if neg then Z.opp v else v, r)
        | None => None
        end
      else Some (0%Z, t)
  | [] => Some (0%Z, [])
  end.
Definition recognize_float (t : text) : option (decimal * text) :=
  let '(neg, r) := sign t in
  match mantissa r with
  | None => None
  | Some (i, f, r) => match exponent r with Some (e, r) => Some (mkDecimal neg i f e, r) | None => None end
  end.

(** [tag_no_case] *)
Definition to_lower (c : ascii) : ascii :=
  let n := N_of_ascii c in if ((65 <=? n) && (n <=? 90))%N then ascii_of_N (n + 32) else c.
Fixpoint tag_no_case (tag t : text) : option text :=
  match tag, t with
  | [], _ => Some t
  | c :: tag, d :: t => if ceq (to_lower c) (to_lower d) then tag_no_case tag t else None
  | _ :: _, [] => None
  end.

Section Double.
Context {N : NumOps} (value : decimal -> N) (exceptions : list (text * N)).
Fixpoint exception (es : list (text * N)) (t : text) : option (N * text) :=
  match es with
  | [] => None
  | (tag, x) :: es => match tag_no_case tag t with Some r => Some (x, r) | None => exception es t end
  end.
(** [double].  (After an exponent without digits [alt] does not try the exceptions; they do not
    match such a text anyway.) *)
Definition nom_double : parser N := fun t =>
  match recognize_float t with
  | Some (d, r) => Some (value d, r)
  | None => exception exceptions t
  end.
End Double.

(** *** [str::parse::<f64>]: the number nearest to the decimal fraction, ties to even *)
Definition b64_of_decimal (d : decimal) : B64 :=
  let digits := d_int d ++ d_frac d in
  let e := (d_exp d - Z.of_nat (length (d_frac d)))%Z in
  match Z.of_N (digits_value digits) with
  | Zpos m =>
      match (Zpos m * 10 ^ Z.max e 0)%Z, (10 ^ Z.max (- e) 0)%Z with
      | Zpos a, Zpos b =>
          let '(mz, ez, lz) := SFdiv_core_binary prec64 emax64 (Zpos a) 0 (Zpos b) 0 in
          binary_round_aux prec64 emax64 (d_neg d) mz ez lz
      | _, _ => S754_nan                       (* not reached: positive *)
      end
  | _ => S754_zero (d_neg d)
  end.
Definition b64_exceptions : list (text * B64) :=
  [(lit "nan", S754_nan); (lit "infinity", S754_infinity false); (lit "inf", S754_infinity false)].
Definition b64_double : parser B64 := nom_double b64_of_decimal b64_exceptions.

(** *** Printing exactly: one of the ways to write a number that is read back.  (Rust's [to_string],
    src/hepmc2.rs:381, src/stripper_xml.rs:209, 246, writes fewer digits; see [displays] in SpecNumber.v.) *)
Definition digit_char (n : BinNums.N) : ascii := ascii_of_N (48 + n mod 10).
Fixpoint fixed_digits (k : nat) (n : BinNums.N) (acc : text) : text :=
  match k with 0 => acc | S k => fixed_digits k (n / 10)%N (digit_char n :: acc) end.
Fixpoint all_digits (fuel : nat) (n : BinNums.N) (acc : text) : text :=
  match fuel with
  | 0 => digit_char n :: acc
  | S fuel => if (n <? 10)%N then digit_char n :: acc else all_digits fuel (n / 10)%N (digit_char n :: acc)
  end.
Definition digits_of (n : BinNums.N) : text := all_digits (N.to_nat (N.log2 n)) n [].
Definition sign_text (s : bool) : text := if s then ["-"%char] else [].
Definition b64_show (x : B64) : text :=
  match x with
  | S754_zero s => sign_text s ++ lit "0"
  | S754_finite s m (Zneg k) =>
      let n := (Npos m * 5 ^ Npos k)%N in
      sign_text s ++ digits_of (n / 10 ^ Npos k)%N ++ "."%char :: fixed_digits (Pos.to_nat k) n []
  | S754_finite s m e => sign_text s ++ digits_of (Npos m * 2 ^ Z.to_N e)%N
  | S754_infinity s => sign_text s ++ lit "inf"
  | S754_nan => lit "NaN"
  end.
