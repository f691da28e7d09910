(** Integers as numbers and as texts, for the examples. *)
From Verif Require Import Base BaseProofs Num ModelText SpecText TextProofs ParserProofs.
From Coq Require Import Lia DecimalString DecimalZ Decimal.

Definition ZN : NumOps := mkNum Z 0%Z 1%Z Z.add Z.sub Z.mul Z.div Z.opp Z.abs Z.sqrt Z.leb Z.ltb Z.eqb Z.of_nat.

Definition number_charb (c : ascii) : bool :=
  let n := N_of_ascii c in
  ((48 <=? n)%N && (n <=? 57)%N) || ((65 <=? n)%N && (n <=? 90)%N) || ((97 <=? n)%N && (n <=? 122)%N) ||
  ceq c "+" || ceq c "-" || ceq c ".".
Lemma number_charb_true c : number_charb c = true <-> number_char c.
Proof.
  unfold number_charb, number_char, decimal_digit. rewrite !orb_true_iff, !andb_true_iff, !N.leb_le, !ceq_true. tauto.
Qed.

Definition z_show (z : ZN) : text := list_ascii_of_string (NilZero.string_of_int (Z.to_int z)).
Definition z_double : parser ZN := fun t =>
  match span number_charb t with
  | ([], _) => None
  | (p, r) => match NilZero.int_of_string (string_of_list_ascii p) with Some d => Some (Z.of_int d, r) | None => None end
  end.

Lemma show_uint_chars d : Forall number_char (list_ascii_of_string (NilZero.string_of_uint d)) /\ list_ascii_of_string (NilZero.string_of_uint d) <> [].
Proof.
  assert (H : forall d, Forall number_char (list_ascii_of_string (NilEmpty.string_of_uint d))).
  { clear. assert (Hd : forall c, decimal_digit c -> number_char c) by (intros c H; left; exact H).
    induction d; cbn; constructor; auto; apply Hd; unfold decimal_digit; cbn; lia. }
  destruct d; cbn; (split; [|discriminate]); try (constructor; [left; unfold decimal_digit; cbn; lia|]); try apply H; constructor.
Qed.

Lemma span_all p (t : text) : Forall (fun c => p c = true) t -> span p t = (t, []).
Proof. intros H. rewrite <- (app_nil_r t) at 1. apply span_app; [exact H|exact I]. Qed.

Lemma z_text : number_text ZN (fun _ => True) z_double z_show.
Proof.
  assert (Hshow : forall w : Z, z_show w <> [] /\ Forall number_char (z_show w)).
  { intros w. unfold z_show, NilZero.string_of_int. destruct (Z.to_int w) as [d|d].
    - destruct (show_uint_chars d). auto.
    - cbn. destruct (show_uint_chars d). split; [discriminate|]. constructor; [|assumption]. right; right; right; right; left. reflexivity. }
  split.
  - intros w _. apply Hshow.
  - intros w _. destruct (Hshow w) as [Hne Hc]. unfold z_double. rewrite span_all.
    2:{ eapply Forall_impl; [|exact Hc]. intros c. apply number_charb_true. }
    destruct (z_show w) as [|c t] eqn:E; [congruence|]. rewrite <- E. unfold z_show. rewrite string_of_list_ascii_of_string.
    rewrite NilZero.isi; [rewrite of_to; reflexivity| |].
    + intros H. pose proof (of_to w) as H2. rewrite H in H2. cbn in H2. subst w. discriminate.
    + intros H. pose proof (of_to w) as H2. rewrite H in H2. cbn in H2. subst w. discriminate.
  - intros t rest Hr. unfold z_double. destruct (span number_charb t) as [p r] eqn:E. apply span_spec in E as (-> & Hp & Hrr).
    rewrite <- app_assoc, span_app; [|exact Hp|].
    + destruct p; [reflexivity|]. destruct (NilZero.int_of_string _); reflexivity.
    + destruct r as [|c r]; [|exact Hrr]. eapply heads_impl; [|exact Hr]. cbn. intros c Hc. destruct (number_charb c) eqn:E; [|reflexivity].
      apply number_charb_true in E. contradiction.
  - intros t w r. unfold z_double. destruct (span number_charb t) as [p r'] eqn:E. apply span_spec in E as (-> & Hp & _).
    destruct p as [|c p]; [discriminate|]. destruct (NilZero.int_of_string _); [|discriminate]. intros H; injection H as _ <-.
    exists (c :: p). split; [reflexivity|]. split; [discriminate|]. eapply Forall_impl; [|exact Hp]. intros x. apply number_charb_true.
Qed.

(** A line of text *)
Definition ln (s : string) : text := lit s ++ [NL].
