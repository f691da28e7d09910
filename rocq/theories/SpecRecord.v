(** What an event record says: weights, particles and their momenta. *)
From Coq Require Import Ascii String List NArith ZArith.
From Verif Require Import Num ModelEvent SpecText SpecFormats SpecHepMC.
Import ListNotations.
Open Scope list_scope.

(** Momentum with the given components: the transverse momentum is sqrt(px^2 + py^2). *)
Definition momentum {N : NumOps} (e px py pz : N) : FourVector N :=
  mkFV (nsqrt (nadd (nmul px px) (nmul py py))) e px py pz.

(** A signed integer (32 bits) *)
Definition int_word (z : Z) (tok : list ascii) : Prop :=
  exists sign ds, tok = sign ++ ds /\ ds <> [] /\ Forall decimal_digit ds /\ (- 2 ^ 31 <= z < 2 ^ 31)%Z /\
    ((sign = [] \/ sign = ["+"%char]) /\ z = Z.of_N (decimal_value ds) \/
     sign = ["-"%char] /\ z = (- Z.of_N (decimal_value ds))%Z).

Section Record.
Context {N : NumOps} (double : list ascii -> option (N * list ascii)).
(** A number *)
Definition num_word (x : N) (tok : list ascii) : Prop := double tok = Some (x, []).

(** *** HepMC: the lines of a record after the first one.
    Particle: "P barcode id px py pz E mass status ...", unit: "U GEV ..." or "U MEV ...",
    names of weights: N followed by the number of names and names in quotes. *)
Inductive hepmc_content :=
| HParticle (id : Z) (e px py pz : N) (status : Z)
| HUnit (mev : bool)
| HNames (names : list (list ascii))
| HOther.
Definition hepmc_line (line : list ascii) (c : hepmc_content) : Prop :=
  ~ In newline line /\
  match c with
  | HParticle id e px py pz status => exists barcode tid tpx tpy tpz te mass tstatus t more,
      line = "P"%char :: t ++ more /\ word_list [barcode; tid; tpx; tpy; tpz; te; mass; tstatus] t /\ heads whitespace more /\
      int_word id tid /\ num_word px tpx /\ num_word py tpy /\ num_word pz tpz /\ num_word e te /\ int_word status tstatus
  | HUnit mev => exists t more, line = "U"%char :: t ++ more /\ heads whitespace more /\
      word_list [list_ascii_of_string (if mev then "MEV" else "GEV")] t
  | HNames l => exists v num t more, line = "N"%char :: num ++ t ++ more /\ number_entry v num /\ (v < 2 ^ 32)%N /\
      quoted_list l t /\ length l = N.to_nat v /\ heads whitespace more
  | HOther => exists c rest, line = c :: rest /\ In c ["V"; "F"; "H"; "C"]%char
  end.
(** A record: the line with the weights, further lines, maybe white space at the end *)
Definition hepmc_record (record : list ascii) (weights : list N) (contents : list hepmc_content) : Prop :=
  exists n pre toks t more lines tail,
    record = (pre ++ t ++ more) ++ concat (map (cons newline) lines) ++ tail /\
    before_weights n pre /\ word_list toks t /\ heads whitespace more /\ ~ In newline more /\
    length toks = N.to_nat n /\ Forall2 num_word weights toks /\
    Forall2 hepmc_line lines contents /\
    (tail = [] \/ exists s, tail = newline :: s /\ Forall (fun c => whitespace c \/ c = "011"%char) s).
(** The outgoing particles: those with status 1 *)
Definition hepmc_outgoing (contents : list hepmc_content) : list (Z * (N * N * N * N)) :=
  flat_map (fun c => match c with HParticle id e px py pz 1 => [(id, (e, px, py, pz))] | _ => [] end) contents.
(** The last unit given counts, GeV if there is none. *)
Definition hepmc_mev (contents : list hepmc_content) : bool :=
  fold_left (fun u c => match c with HUnit mev => mev | _ => u end) contents false.
(** Momenta are converted to GeV. *)
Definition in_gev (mev : bool) (p : N * N * N * N) : FourVector N :=
  let '(e, px, py, pz) := p in
  let s x := nmul (ndiv n1 (nofnat 1000)) x in
  if mev then momentum (s e) (s px) (s py) (s pz) else momentum e px py pz.
(** The weights with one of the wanted names, in the order of the record *)
Definition named_weights (wanted : list (list ascii)) (weights : list N) (contents : list hepmc_content) : list N :=
  flat_map (fun c => match c with
    | HNames l => map snd (filter (fun x => if in_dec (list_eq_dec ascii_dec) (fst x) wanted then true else false) (combine l weights))
    | _ => [] end) contents.
(** every wanted name is in each line of names *)
Definition all_named (wanted : list (list ascii)) (weights : list N) (contents : list hepmc_content) : Prop :=
  forall l, In (HNames l) contents -> forall n, In n wanted -> In n (firstn (length weights) l).

(** *** LHEF: a tag, a line starting with number of particles, process and weight, then one line
    "IDUP ISTUP mother mother colour colour px py pz E ..." for each particle *)
Definition lhef_line (line : list ascii) (id status : Z) (p : option (N * N * N * N)) : Prop :=
  ~ In newline line /\ ~ In "013"%char line /\
  exists s0 tid rest, line = s0 ++ tid ++ rest /\ Forall blank s0 /\ int_word id tid /\
    match p with
    | Some (e, px, py, pz) => exists tstatus m1 m2 c1 c2 tpx tpy tpz te t more, rest = t ++ more /\
        word_list [tstatus; m1; m2; c1; c2; tpx; tpy; tpz; te] t /\ heads whitespace more /\
        int_word status tstatus /\ num_word px tpx /\ num_word py tpy /\ num_word pz tpz /\ num_word e te
    | None => exists tstatus t more, rest = t ++ more /\ word_list [tstatus] t /\ heads whitespace more /\ int_word status tstatus /\ status <> 1%Z
    end.
Definition lhef_record (record : list ascii) (weight : N) (contents : list (Z * Z * option (N * N * N * N))) : Prop :=
  exists lead tag s0 nup t idrup wt more lines tail,
    record = lead ++ tag ++ newline :: s0 ++ nup ++ t ++ more ++ concat (map (cons newline) lines) ++ tail /\
    Forall (fun c => whitespace c \/ c = "011"%char) lead /\ tag <> [] /\ ~ In newline tag /\
    heads (fun c => ~ (whitespace c \/ c = "011"%char)) tag /\
    Forall blank s0 /\ nup <> [] /\ Forall decimal_digit nup /\ decimal_value nup = N.of_nat (length contents) /\ (N.of_nat (length contents) < 2 ^ 32)%N /\
    word_list [idrup; wt] t /\ num_word weight wt /\ heads whitespace more /\ ~ In newline more /\
    Forall2 (fun line c => lhef_line line (fst (fst c)) (snd (fst c)) (snd c)) lines contents /\
    begins_with [newline] tail.
Definition lhef_outgoing (contents : list (Z * Z * option (N * N * N * N))) : list (Z * (N * N * N * N)) :=
  flat_map (fun '(id, status, p) => match p with Some p => if Z.eqb status 1 then [(id, p)] else [] | None => [] end) contents.

(** *** STRIPPER XML: the tag with the weight, then particles
    <p id="status,id"> E,px,py,pz </p>; outgoing particles have status 0. *)
Definition xml_space (s : list ascii) : Prop := Forall (fun c => c = " " \/ c = "009" \/ c = "010" \/ c = "013")%char s.
(** [gap]: what may be before the energy *)
Definition xml_particle (gap : list ascii -> Prop) (t : list ascii) (status : Z) (p : option (Z * (N * N * N * N))) : Prop :=
  exists s0 s1 tstatus rest, t = s0 ++ list_ascii_of_string "<p" ++ s1 ++ list_ascii_of_string "id=" ++ ["034"%char] ++ tstatus ++ rest /\
    xml_space s0 /\ Forall blank s1 /\ int_word status tstatus /\
    match p with
    | Some (id, (e, px, py, pz)) => status = 0%Z /\ exists tid te tpx tpy tpz s2 s3,
        rest = "," ::  tid ++ ["034"; ">"] ++ s2 ++ te ++ "," :: tpx ++ "," :: tpy ++ "," :: tpz ++ s3 ++ list_ascii_of_string "</p>" /\
        gap s2 /\ Forall blank s3 /\
        int_word id tid /\ num_word e te /\ num_word px tpx /\ num_word py tpy /\ num_word pz tpz
    | None => status <> 0%Z /\ heads (fun c => ~ decimal_digit c) rest /\ first_at_end (list_ascii_of_string "</p>") rest
    end%char.
Definition xml_record (gap : list ascii -> Prop) (record : list ascii) (weight : N) (contents : list (Z * option (Z * (N * N * N * N)))) : Prop :=
  exists s0 wt attr ts tail,
    record = subevent_start ++ s0 ++ list_ascii_of_string "w=" ++ ["034"%char] ++ wt ++ ["034"%char] ++ attr ++ [">"%char] ++ concat ts ++ tail /\
    blanks s0 /\ num_word weight wt /\ ~ In ">"%char attr /\
    Forall2 (fun t c => xml_particle gap t (fst c) (snd c)) ts contents /\
    (exists s more, tail = s ++ more /\ xml_space s /\ heads (fun c => ~ (c = " " \/ c = "009" \/ c = "010" \/ c = "013")%char) more /\ ~ begins_with (list_ascii_of_string "<p") more).
Definition xml_outgoing (contents : list (Z * option (Z * (N * N * N * N)))) : list (Z * (N * N * N * N)) :=
  flat_map (fun c => match snd c with Some p => [p] | None => [] end) contents.
End Record.
Arguments hepmc_content : clear implicits.
