(** Lemmas about [ModelEvent]. *)
From Coq Require Import ZArith Reals.
From Verif Require Import Base BaseProofs Num ModelEvent SpecEvent.
Set Implicit Arguments.
Unset Strict Implicit.

(** *** Number domains *)
Lemma RN_cmp : cmp_on RN (fun _ => True).
Proof.
  split; [exact RN_order|]. intros x y _ _. cbn.
  destruct (Reqb x y) eqn:E.
  - apply Reqb_true in E. subst. symmetry. apply andb_true_iff. rewrite Rleb_true. split; apply Rle_refl.
  - symmetry. apply not_true_iff_false. rewrite andb_true_iff, !Rleb_true. intros [H1 H2].
    assert (x = y) by (apply Rle_antisym; auto). apply Reqb_true in H. cbn in *. congruence.
Qed.

Lemma SFeqb_key x y : x <> SpecFloat.S754_nan -> y <> SpecFloat.S754_nan ->
  SpecFloat.SFeqb x y = true <-> b64_key x = b64_key y.
Proof.
  intros Hx Hy. unfold SpecFloat.SFeqb, SpecFloat.SFcompare, b64_key in *.
  destruct x as [ [] | [] | | [] mx ex ]; destruct y as [ [] | [] | | [] my ey ];
    try congruence; cbv beta iota zeta;
    try (split; [intros; congruence | intros H; inversion H; reflexivity || congruence]);
    destruct (Z.compare_spec ex ey) as [He|He|He]; try (split; [intros; congruence|intros H; inversion H; lia]);
    change (Pos.compare_cont Eq mx my) with (Pos.compare mx my); destruct (Pos.compare_spec mx my); cbv beta iota delta [CompOpp];
    (split; [intros; congruence|intros H'; inversion H'; reflexivity || lia]).
Qed.

Lemma B64_cmp : cmp_on B64 not_nan.
Proof.
  split; [exact B64_order|]. unfold not_nan. cbn [neqb nleb B64 num]. intros x y Hx Hy.
  apply eq_true_iff_eq. rewrite andb_true_iff, SFeqb_key, !SFleb_key by assumption.
  destruct (b64_key x) as [[? ?] ?], (b64_key y) as [[? ?] ?]. cbn. split.
  - intros H; inversion H; subst. lia.
  - intros [H1 H2]. assert (z = z2 /\ z0 = z3 /\ z1 = z4) as (-> & -> & ->); [lia|reflexivity].
Qed.

(** *** Comparison of momenta *)
Section Cmp.
Context (N : NumOps) (D : N -> Prop).
Hypothesis HD : cmp_on N D.

Lemma ncmp_spec (a b : N) : D a -> D b ->
  match ncmp a b with
  | Lt => nleb a b = true /\ nleb b a = false
  | Eq => nleb a b = true /\ nleb b a = true
  | Gt => nleb a b = false /\ nleb b a = true
  end.
Proof.
  intros Ha Hb. destruct HD as [[[Ht _] Hl] He]. unfold ncmp. rewrite (Hl a b), (He a b) by auto.
  destruct (Ht a b Ha Hb) as [H|H]; rewrite H; cbn.
  - destruct (nleb b a); cbn; auto.
  - destruct (nleb a b); cbn; auto.
Qed.

Lemma lex_cmp_opp (l l' : list N) : Forall D l -> Forall D l' -> lex_cmp l' l = CompOpp (lex_cmp l l').
Proof.
  intros Hl. revert l'. induction Hl as [|a t Ha _ IH]; intros [|b t'] Hl'; cbn; auto.
  inversion Hl'; subst. pose proof (ncmp_spec Ha H1) as S1. pose proof (ncmp_spec H1 Ha) as S2.
  destruct (ncmp a b), (ncmp b a); cbn; try (exfalso; destruct S1, S2; congruence); auto.
Qed.

Lemma lex_cmp_refl (l : list N) : Forall D l -> lex_cmp l l = Eq.
Proof.
  induction 1 as [|a t Ha _ IH]; cbn; auto. pose proof (ncmp_spec Ha Ha) as S.
  destruct (ncmp a a); auto; destruct S; congruence.
Qed.

Lemma lex_trans (l1 l2 l3 : list N) : Forall D l1 -> Forall D l2 -> Forall D l3 ->
  leb_of (lex_cmp l1 l2) = true -> leb_of (lex_cmp l2 l3) = true -> leb_of (lex_cmp l1 l3) = true.
Proof.
  assert (Htr : forall x y z, D x -> D y -> D z -> nleb x y = true -> nleb y z = true -> nleb x z = true).
  { destruct HD as [[[_ H] _] _]. exact H. }
  intros H1. revert l2 l3. induction H1 as [|a t Ha _ IH]; intros [|b t2] [|c t3] H2 H3; cbn; auto; try discriminate.
  inversion H2 as [|? ? Hb Ht2]; inversion H3 as [|? ? Hc Ht3]; subst.
  pose proof (ncmp_spec Ha Hb) as S1. pose proof (ncmp_spec Hb Hc) as S2. pose proof (ncmp_spec Ha Hc) as S3.
  destruct (ncmp a b), (ncmp b c), (ncmp a c); cbn; intros E1 E2; try discriminate; auto;
    try (exfalso; destruct S1 as [A1 B1], S2 as [A2 B2], S3 as [A3 B3];
         pose proof (Htr a b c); pose proof (Htr c b a); pose proof (Htr b c a); pose proof (Htr c a b);
         pose proof (Htr b a c); pose proof (Htr a c b); intuition congruence).
  eauto.
Qed.

Lemma fv_preorder (P : FourVector N -> Prop) : (forall p, P p -> mom_in D p) -> total_preorder_on P (@fv_leb N).
Proof.
  intros HP. split.
  - intros p q Hp Hq. apply HP in Hp, Hq. unfold fv_leb, fv_cmp.
    fold (coords p) (coords q). rewrite (lex_cmp_opp Hp Hq). destruct (lex_cmp _ _); auto.
  - intros p q r Hp Hq Hr. apply HP in Hp, Hq, Hr. apply lex_trans; auto.
Qed.

Lemma lex_le_spec (l l' : list N) : Forall D l -> Forall D l' -> length l = length l' ->
  leb_of (lex_cmp l l') = true <-> lex_le l l'.
Proof.
  intros Hl. revert l'. induction Hl as [|a t Ha _ IH]; intros [|b t'] Hl' Hlen; cbn in *; try discriminate.
  - tauto.
  - inversion Hl'; subst. unfold ncmp. destruct (nltb a b) eqn:E1; cbn; [tauto|].
    destruct (neqb a b) eqn:E2; cbn.
    + rewrite IH by (auto; lia). intuition discriminate.
    + intuition discriminate.
Qed.

Lemma fv_le_spec (p q : FourVector N) : mom_in D p -> mom_in D q -> fv_leb p q = true <-> mom_le p q.
Proof. intros Hp Hq. apply lex_le_spec; auto. Qed.

Lemma fv_eqv_spec (p q : FourVector N) : mom_in D p -> mom_in D q ->
  fv_leb p q = true -> fv_leb q p = true -> mom_eqv p q.
Proof.
  unfold fv_leb, fv_cmp, mom_eqv. change ([fv_pt p; fv_e p; fv_x p; fv_y p; fv_z p]) with (coords p).
  change ([fv_pt q; fv_e q; fv_x q; fv_y q; fv_z q]) with (coords q). unfold mom_in.
  assert (Hlen : length (coords p) = length (coords q)) by reflexivity. revert Hlen.
  generalize (coords p) (coords q). intros l l' Hlen Hl. revert l' Hlen.
  induction Hl as [|a t Ha _ IH]; intros [|b t'] Hlen Hl'; cbn in *; try discriminate; auto.
  inversion Hl'; subst. unfold ncmp at 1. destruct (nltb a b) eqn:E1; cbn.
  - unfold ncmp. destruct (nltb b a) eqn:E2; cbn.
    + pose proof (proj2 (proj1 HD) a b Ha H1). pose proof (proj2 (proj1 HD) b a H1 Ha).
      destruct (proj1 (proj1 (proj1 HD)) a b Ha H1) as [E|E]; rewrite E in *; cbn in *; congruence.
    + destruct (neqb b a) eqn:E3; cbn; [|discriminate]. rewrite (proj2 HD b a) in E3 by auto.
      rewrite (proj2 (proj1 HD) a b) in E1 by auto. destruct (nleb b a); cbn in *; discriminate.
  - destruct (neqb a b) eqn:E2; cbn; [|discriminate]. intros H3 H4. constructor; auto.
    apply IH; auto. unfold ncmp in H4. destruct (nltb b a) eqn:E4.
    + rewrite (proj2 (proj1 HD) b a) in E4 by auto. rewrite (proj2 HD a b) in E2 by auto.
      destruct (nleb a b); cbn in *; discriminate.
    + destruct (neqb b a); auto. discriminate.
Qed.

(** *** Sorted pairs *)
Definition part_in (x : Z * FourVector N) := mom_in D (snd x).

Lemma out_preorder (l : list (Z * FourVector N)) : Forall part_in l ->
  total_preorder_on (fun x => In x l) (@out_geb N).
Proof.
  intros Hl. rewrite Forall_forall in Hl.
  destruct (@fv_preorder (mom_in D)) as [T1 T2]; auto. unfold out_geb. split.
  - intros x y Hx Hy. apply Hl in Hx, Hy. rewrite (Z.compare_antisym (fst y) (fst x)).
    destruct (Z.compare (fst y) (fst x)); cbn; auto.
  - intros x y z Hx Hy Hz. apply Hl in Hx, Hy, Hz.
    destruct (Z.compare_spec (fst y) (fst x)), (Z.compare_spec (fst z) (fst y)), (Z.compare_spec (fst z) (fst x));
      try (intros; discriminate || reflexivity || lia); intros A B; eauto.
Qed.

End Cmp.

(** *** Grouping *)
Section Group.
Context (N : NumOps).

Lemma particles_app A (o1 o2 : list (Z * list A)) : particles_of (o1 ++ o2) = particles_of o1 ++ particles_of o2.
Proof. apply flat_map_app. Qed.

Lemma particles_in A (o : list (Z * list A)) id p :
  In (id, p) (particles_of o) <-> exists ps, In (id, ps) o /\ In p ps.
Proof.
  unfold particles_of. rewrite in_flat_map. split.
  - intros ([i ps] & H & Hp). apply in_map_iff in Hp. destruct Hp as (p' & E & Hp). injection E as -> ->. eauto.
  - intros (ps & H & Hp). exists (id, ps). split; auto. apply in_map; auto.
Qed.

Definition desc (g h : Z * list (FourVector N)) := (fst h < fst g)%Z.

Lemma SS_snoc A (R : A -> A -> Prop) l x : StronglySorted R l -> Forall (fun a => R a x) l -> StronglySorted R (l ++ [x]).
Proof.
  induction 1 as [|a t Ht IH Ha]; intros H; cbn; [repeat constructor|].
  inversion H; subst. constructor; auto. apply Forall_app. auto.
Qed.

Lemma SS_app A (R : A -> A -> Prop) l1 l2 : StronglySorted R (l1 ++ l2) <->
  StronglySorted R l1 /\ StronglySorted R l2 /\ forall x y, In x l1 -> In y l2 -> R x y.
Proof.
  induction l1 as [|a t IH]; cbn.
  - split; [intros H; repeat split; auto; [constructor|intros ? ? []]|tauto].
  - split.
    + intros H. inversion H as [|? ? H1 H2]; subst. apply IH in H1. destruct H1 as (A1 & A2 & A3).
      apply Forall_app in H2. destruct H2 as [H2 H3]. rewrite Forall_forall in H3. repeat split; auto.
      * constructor; auto.
      * intros x y [<-|Hx] Hy; auto.
    + intros (H1 & H2 & H3). inversion H1; subst. constructor.
      * apply IH. split; [auto|split; [auto|intros; apply H3; auto]].
      * apply Forall_app. split; auto. apply Forall_forall. intros y Hy. apply H3; auto.
Qed.

Lemma push_group_spec acc x :
  StronglySorted desc acc -> Forall (fun g => snd g <> []) acc ->
  Forall (fun y => (fst x <= fst y)%Z) (particles_of acc) ->
  particles_of (push_group acc x) = particles_of acc ++ [x] /\
  StronglySorted desc (push_group acc x) /\ Forall (fun g => snd g <> []) (push_group acc x).
Proof.
  intros Hs Hne Hle. unfold push_group. destruct (rev acc) as [|[pid v] r] eqn:E.
  - assert (acc = []) as -> by (rewrite <- (rev_involutive acc), E; reflexivity).
    destruct x as [id p]. cbn. repeat split; repeat constructor. discriminate.
  - assert (Eacc : acc = rev r ++ [(pid, v)]) by (rewrite <- (rev_involutive acc), E; reflexivity).
    rewrite Eacc in Hs, Hne, Hle |- *.
    apply SS_app in Hs. destruct Hs as (S1 & S2 & S3).
    apply Forall_app in Hne. destruct Hne as [N1 N2]. inversion N2 as [|? ? Nv _]; subst. cbn in Nv.
    destruct (Z.eqb_spec pid (fst x)) as [->|Hp].
    + destruct x as [id p]. cbn [fst snd] in *. rewrite !particles_app. split; [|split].
      * cbn. rewrite !app_nil_r, map_app. cbn. rewrite app_assoc. reflexivity.
      * apply SS_app. repeat split; auto.
        -- repeat constructor.
        -- intros a b Ha [<-|[]]. apply (S3 a (id, v)); auto. left; auto.
      * apply Forall_app. split; auto. constructor; auto. cbn. destruct v; discriminate.
    + destruct x as [id p]. cbn [fst snd] in *.
      rewrite (particles_app (rev r ++ [(pid, v)])). split; [|split].
      * cbn. reflexivity.
      * assert (Hlt : (id < pid)%Z).
        { destruct v as [|q v]; [congruence|].
          rewrite particles_app in Hle. apply Forall_app in Hle. destruct Hle as [_ Hle]. cbn in Hle.
          inversion Hle; subst. cbn in *. lia. }
        apply SS_snoc.
        -- apply SS_app. auto.
        -- apply Forall_app. split.
           ++ apply Forall_forall. intros a Ha. specialize (S3 a (pid, v) Ha (or_introl eq_refl)).
              unfold desc in *. cbn in *. lia.
           ++ constructor; auto.
      * apply Forall_app. split; [apply Forall_app; auto|]. constructor; auto. cbn. discriminate.
Qed.

Lemma group_fold l : StronglySorted (fun a b : Z * FourVector N => (fst b <= fst a)%Z) l ->
  particles_of (fold_left (@push_group N) l []) = l /\
  StronglySorted desc (fold_left (@push_group N) l []) /\
  Forall (fun g => snd g <> []) (fold_left (@push_group N) l []).
Proof.
  induction l as [|x l IH] using rev_ind; intros Hs.
  - cbn. repeat split; constructor.
  - rewrite fold_left_app. cbn [fold_left]. apply SS_app in Hs. destruct Hs as (S1 & S2 & S3).
    destruct (IH S1) as (A & B & C).
    destruct (@push_group_spec (fold_left (@push_group N) l []) x) as (A' & B' & C'); auto.
    { rewrite A. apply Forall_forall. intros y Hy. apply (S3 y x); auto. left; auto. }
    rewrite A' , A. auto.
Qed.

End Group.

Section Build.
Context (N : NumOps) (D : N -> Prop).
Hypothesis HD : cmp_on N D.
Context (sort : sorter).
Hypothesis Hsort : sort_ok sort.

Lemma SS_impl_in A (R S : A -> A -> Prop) l : (forall a b, In a l -> In b l -> R a b -> S a b) ->
  StronglySorted R l -> StronglySorted S l.
Proof.
  intros H Hs. induction Hs as [|a t Ht IH Ha]; constructor.
  - apply IH. intros; apply H; auto; right; auto.
  - rewrite Forall_forall in *. intros b Hb. apply H; auto; [left|right]; auto.
Qed.

Lemma compress_spec (out : list (Z * FourVector N)) : Forall (part_in D) out ->
  let g := compress_outgoing sort out in
  grouped g /\ particles_of g = sort (@out_geb N) out /\ Permutation out (particles_of g).
Proof.
  intros Hin. cbv zeta. unfold compress_outgoing.
  destruct (Hsort (out_preorder HD Hin)) as [Hp Ho].
  set (s := sort (@out_geb N) out) in *.
  assert (Hs : Forall (part_in D) s) by (eapply Permutation_Forall; eauto).
  assert (Hd : StronglySorted (fun a b : Z * FourVector N => (fst b <= fst a)%Z) s).
  { eapply SS_impl_in; [|exact Ho]. intros a b _ _ H. unfold out_geb in H.
    destruct (Z.compare_spec (fst b) (fst a)); try discriminate; lia. }
  destruct (group_fold Hd) as (A & B & C).
  split; [|split; [exact A|rewrite A; exact Hp]]. split; [exact B|].
  set (g := fold_left (@push_group N) s []) in *.
  apply Forall_forall. intros [id ps] Hg. rewrite Forall_forall in C. split; [apply C; auto|].
  cbn [snd]. apply in_split in Hg. destruct Hg as (g1 & g2 & Eg).
  assert (Hsub : StronglySorted (fun x y => out_geb x y = true) (map (pair id) ps)).
  { unfold ordered in Ho. rewrite <- A, Eg in Ho. change ((id, ps) :: g2) with ([(id, ps)] ++ g2) in Ho.
    rewrite !particles_app in Ho. apply SS_app in Ho. destruct Ho as (_ & Ho & _).
    apply SS_app in Ho. destruct Ho as (Ho & _). cbn in Ho. rewrite app_nil_r in Ho. exact Ho. }
  assert (Hps : forall p, In p ps -> mom_in D p).
  { intros p Hp'. rewrite Forall_forall in Hs. apply (Hs (id, p)). rewrite <- A, Eg.
    apply particles_in. exists ps. split; auto. apply in_or_app. right; left; auto. }
  clear - Hsub Hps HD. induction ps as [|p t IH]; [constructor|]. cbn in Hsub.
  inversion Hsub as [|? ? H1 H2]; subst. constructor.
  - apply IH; auto. intros; apply Hps; right; auto.
  - apply Forall_forall. intros q Hq. rewrite Forall_forall in H2.
    specialize (H2 (id, q) (in_map _ _ _ Hq)). unfold out_geb in H2. cbn in H2. rewrite Z.compare_refl in H2.
    apply (@fv_le_spec N D) in H2; auto; apply Hps; [right|left]; auto.
Qed.

End Build.

(** *** Binary search *)
Section BSearch.
Context (A : Type) (cmp : A -> comparison) (l : list A).
Hypothesis Hsorted : forall i j x y, i < j -> nth_error l i = Some x -> nth_error l j = Some y ->
  cmp x <> Lt -> cmp y = Gt.

Lemma bsearch_loop_spec i x : nth_error l i = Some x -> cmp x = Eq ->
  forall fuel base size, size <= fuel -> base <= i < base + size -> base + size <= length l ->
  bsearch_loop fuel cmp l base size = i.
Proof.
  intros Hi Hx. induction fuel as [|fuel IH]; intros base size Hf Hb Hl; [lia|]. cbn [bsearch_loop].
  destruct (Nat.leb_spec size 1) as [H1|H1]; [lia|].
  assert (Hh : 0 < size / 2 /\ size / 2 <= size - size / 2).
  { pose proof (Nat.div_mod size 2). pose proof (Nat.mod_upper_bound size 2). lia. }
  destruct (nth_error l (base + size / 2)) as [y|] eqn:Ey.
  2:{ apply nth_error_None in Ey. lia. }
  destruct (cmp y) eqn:Ec.
  - assert (i = base + size / 2) as ->.
    { destruct (Nat.lt_trichotomy i (base + size / 2)) as [H|[H|H]]; auto; exfalso.
      - pose proof (Hsorted H Hi Ey). rewrite Hx in H0. specialize (H0 ltac:(discriminate)). congruence.
      - pose proof (Hsorted H Ey Hi). rewrite Ec in H0. specialize (H0 ltac:(discriminate)). congruence. }
    apply IH; lia.
  - assert (base + size / 2 <= i).
    { destruct (Nat.le_gt_cases (base + size / 2) i) as [H|H]; auto; exfalso.
      pose proof (Hsorted H Hi Ey). rewrite Hx in H0. specialize (H0 ltac:(discriminate)). congruence. }
    apply IH; lia.
  - assert (i < base + size / 2).
    { destruct (Nat.le_gt_cases (base + size / 2) i) as [H|H]; auto; exfalso.
      destruct (Nat.eq_dec (base + size / 2) i) as [<-|Hne]; [congruence|].
      assert (Hlt : base + size / 2 < i) by lia.
      pose proof (Hsorted Hlt Ey Hi). rewrite Ec in H0. specialize (H0 ltac:(discriminate)). congruence. }
    apply IH; lia.
Qed.

Lemma binary_search_spec :
  match binary_search_by cmp l with
  | Some i => exists x, nth_error l i = Some x /\ cmp x = Eq
  | None => forall x, In x l -> cmp x <> Eq
  end.
Proof.
  destruct (binary_search_by cmp l) as [i|] eqn:E.
  - unfold binary_search_by in E. destruct (nth_error l _) as [x|] eqn:Ex; [|discriminate].
    destruct (cmp x) eqn:Ec; try discriminate. injection E as <-. eauto.
  - intros x Hx Hc. apply In_nth_error in Hx. destruct Hx as [i Hi].
    assert (Hlt : i < length l) by (apply nth_error_Some; congruence).
    unfold binary_search_by in E. rewrite (@bsearch_loop_spec i x Hi Hc) in E by lia.
    rewrite Hi, Hc in E. discriminate.
Qed.
End BSearch.

Lemma SS_nth A (R : A -> A -> Prop) l i j x y : StronglySorted R l -> i < j ->
  nth_error l i = Some x -> nth_error l j = Some y -> R x y.
Proof.
  intros H. revert i j. induction H as [|a t Ht IH Ha]; intros [|i] [|j] Hij Hi Hj; cbn in *; try discriminate; try lia.
  - injection Hi as <-. rewrite Forall_forall in Ha. apply Ha. eapply nth_error_In; eauto.
  - apply (IH i j); auto. lia.
Qed.

Lemma with_id_group N (out : list (Z * list (FourVector N))) pid :
  StronglySorted (@desc N) out ->
  (forall ps, In (pid, ps) out -> with_id pid (particles_of out) = ps) /\
  ((forall ps, ~ In (pid, ps) out) -> with_id pid (particles_of out) = []).
Proof.
  intros Hs.
  assert (H0 : forall o : list (Z * list (FourVector N)), (forall ps, ~ In (pid, ps) o) -> with_id pid (particles_of o) = []).
  { clear. intros o H. unfold with_id, particles_of. induction o as [|[i qs] o IH]; cbn; auto.
    rewrite filter_app, map_app, IH.
    - rewrite app_nil_r. assert (Hne : i <> pid) by (intros ->; apply (H qs); left; auto).
      clear - Hne. induction qs; cbn; auto. destruct (Z.eqb_spec i pid); [congruence|auto].
    - intros ps Hp. apply (H ps). right; auto. }
  split; [|apply H0]. intros ps Hin. apply in_split in Hin. destruct Hin as (o1 & o2 & ->).
  apply SS_app in Hs. destruct Hs as (_ & S2 & S3). inversion S2 as [|? ? S4 S5]; subst.
  change ((pid, ps) :: o2) with ([(pid, ps)] ++ o2). rewrite !particles_app.
  unfold with_id. rewrite !filter_app, !map_app. fold (with_id pid (particles_of o1)) (with_id pid (particles_of o2)).
  rewrite (H0 o1), (H0 o2).
  - rewrite app_nil_r. cbn. rewrite app_nil_r. clear. induction ps; cbn; auto. rewrite Z.eqb_refl. cbn. f_equal. auto.
  - intros qs Hq. rewrite Forall_forall in S5. specialize (S5 _ Hq). unfold desc in S5. cbn in S5. lia.
  - intros qs Hq. specialize (S3 (pid, qs) (pid, ps) Hq (or_introl eq_refl)). unfold desc in S3. cbn in S3. lia.
Qed.

Lemma lookup_spec N (ev : Event N) pid : StronglySorted (@desc N) (ev_out ev) ->
  outgoing_with_pid ev pid = with_id pid (particles_of (ev_out ev)).
Proof.
  intros Hs. destruct (with_id_group pid Hs) as [H1 H2]. unfold outgoing_with_pid.
  set (cmp := fun probe : Z * list (FourVector N) => Z.compare pid (fst probe)).
  assert (Hc : forall i j x y, i < j -> nth_error (ev_out ev) i = Some x -> nth_error (ev_out ev) j = Some y ->
     cmp x <> Lt -> cmp y = Gt).
  { intros i j x y Hij Hi Hj Hx. pose proof (SS_nth Hs Hij Hi Hj) as H. unfold desc, cmp in *.
    apply Z.compare_gt_iff. destruct (Z.compare_spec pid (fst x)); try congruence; lia. }
  pose proof (binary_search_spec Hc) as H.
  destruct (binary_search_by cmp (ev_out ev)) as [i|] eqn:E; cbn in *; rewrite ?E.
  - destruct H as ([id ps] & Hi & Hx). rewrite Hi. unfold cmp in Hx. cbn in Hx. apply Z.compare_eq in Hx. subst id.
    symmetry. apply H1. eapply nth_error_In; eauto.
  - symmetry. apply H2. intros ps Hp. apply (H _ Hp). unfold cmp. cbn. apply Z.compare_refl.
Qed.

(** *** Sorted permutations are equivalent position by position *)
Section Eqv.
Context (A : Type) (leb : A -> A -> bool) (P : A -> Prop).
Hypothesis Hpre : total_preorder_on P leb.
Definition eqv a b := leb a b = true /\ leb b a = true.

Lemma insert_eqv l l' : Forall P l -> Permutation l l' -> ordered leb l -> ordered leb l' -> Forall2 eqv l l'.
Proof.
  destruct Hpre as [Htot Htr].
  assert (Hrefl : forall x, P x -> leb x x = true) by (intros x Hx; destruct (Htot x x Hx Hx); auto).
  remember (length l) as n eqn:En. revert l l' En. induction n as [|n IH]; intros l l' En HP Hp Ho Ho'.
  - destruct l; [|discriminate]. apply Permutation_nil in Hp. subst. constructor.
  - destruct l as [|a t]; [discriminate|].
    destruct l' as [|b t']; [apply Permutation_sym, Permutation_nil in Hp; discriminate|].
    assert (HP' : Forall P (b :: t')) by (eapply Permutation_Forall; eauto).
    inversion Ho as [|? ? Ho1 Ha]; subst. inversion Ho' as [|? ? Ho1' Hb]; subst.
    rewrite Forall_forall in Ha, Hb, HP, HP'.
    assert (Hab : leb a b = true).
    { assert (In b (a :: t)) as [->|Hin] by (eapply Permutation_in; [apply Permutation_sym; eauto|left; auto]); auto.
      apply Hrefl, HP; left; auto. }
    assert (Hba : leb b a = true).
    { assert (In a (b :: t')) as [->|Hin] by (eapply Permutation_in; eauto; left; auto); auto.
    }
    (* exchange a and b: replace b by a in l' *)
    assert (Hin : In a (b :: t')) by (eapply Permutation_in; eauto; left; auto).
    destruct Hin as [->|Hin].
    + constructor; [split; auto|].
      assert (En' : n = length t) by (cbn in En; lia).
      assert (Ft : Forall P t) by (apply Forall_forall; intros; apply HP; right; auto).
      apply IH; auto. eapply Permutation_cons_inv; eauto.
    + apply in_split in Hin. destruct Hin as (u & v & ->).
      constructor; [split; auto|].
      assert (Hp2 : Permutation t (u ++ b :: v)).
      { apply (@Permutation_cons_inv _ t (u ++ b :: v) a). rewrite Hp.
        change (b :: u ++ a :: v) with ((b :: u) ++ a :: v). rewrite <- Permutation_middle. cbn.
        rewrite <- (Permutation_middle u v b). auto. }
      assert (Heq : forall x, P x -> leb x b = true <-> leb x a = true).
      { intros x Hx. split; intros H.
        - apply (Htr x b a); auto; [apply HP'; left; auto|apply HP; left; auto].
        - apply (Htr x a b); auto; [apply HP; left; auto|apply HP'; left; auto]. }
      assert (Heq' : forall x, P x -> leb b x = true <-> leb a x = true).
      { intros x Hx. split; intros H.
        - apply (Htr a b x); auto; [apply HP; left; auto|apply HP'; left; auto].
        - apply (Htr b a x); auto; [apply HP'; left; auto|apply HP; left; auto]. }
      assert (Hord : ordered leb (u ++ b :: v)).
      { unfold ordered in *. rewrite SS_app in Ho1' |- *. destruct Ho1' as (U1 & U2 & U3).
        inversion U2 as [|? ? V1 V2]; subst. repeat split; auto.
        - constructor; auto. rewrite Forall_forall in *. intros x Hx. apply Heq'; auto.
          apply HP'. right. apply in_or_app. right; right; auto.
        - intros x y Hx [<-|Hy]; [|apply U3; auto; right; auto].
          apply Heq; [apply HP'; right; apply in_or_app; auto|]. apply U3; auto. left; auto. }
      assert (Hf : Forall2 eqv t (u ++ b :: v)).
      { assert (En' : n = length t) by (cbn in En; lia).
        assert (Ft : Forall P t) by (apply Forall_forall; intros; apply HP; right; auto).
        apply IH; auto. }
      apply Forall2_app_inv_r in Hf. destruct Hf as (t1 & t2 & F1 & F2 & ->).
      inversion F2 as [|c ? t3 ? F3 F4]; subst. apply Forall2_app; auto. constructor; auto.
      assert (HPc : P c) by (apply HP; right; apply in_or_app; right; left; auto).
      destruct F3 as [F3 F5]. split; [apply Heq; auto|apply Heq'; auto].
Qed.
End Eqv.

(** *** Events made with the builder *)
Section Made.
Context (N : NumOps).

Lemma add_all_out (particles : list (Z * FourVector N)) b :
  fold_left (fun b x => add_outgoing b (fst x) (snd x)) particles b
  = mkBuilder (b_weights b) (b_out b ++ particles).
Proof.
  revert b. induction particles as [|[id p] t IH]; intros [w o]; cbn; [rewrite app_nil_r; auto|].
  rewrite IH. cbn. rewrite <- app_assoc. reflexivity.
Qed.

Lemma add_all_weights mw (weights : list N) b : (mw = false -> length (b_weights b) = 1) ->
  fold_left (add_weight mw) weights b
  = mkBuilder (if mw then b_weights b ++ weights else [last weights (nth 0 (b_weights b) n0)]) (b_out b).
Proof.
  revert b. induction weights as [|w t IH]; intros [ws o] Hb; cbn [fold_left b_weights b_out] in *.
  - destruct mw; [rewrite app_nil_r; auto|]. specialize (Hb eq_refl).
    destruct ws as [|a [|]]; cbn in Hb; try discriminate. reflexivity.
  - rewrite IH.
    + unfold add_weight. cbn [b_weights b_out]. destruct mw.
      * rewrite <- app_assoc. reflexivity.
      * cbn [nth]. do 2 f_equal. clear. revert w. generalize (nth 0 ws n0) as d.
        induction t as [|a t IH]; intros d w; auto. cbn [last] in *. destruct t; auto.
    + intros ->. reflexivity.
Qed.

Lemma made_eq mw particles (weights : list N) :
  made mw particles weights = mkBuilder (if mw then weights else [last weights n0]) particles.
Proof.
  unfold made. rewrite add_all_out. cbn [builder_new b_weights b_out app].
  rewrite add_all_weights; [destruct mw; reflexivity|]. intros ->. reflexivity.
Qed.

Lemma made_build D sort mw particles (weights : list N) : cmp_on N D -> sort_ok sort ->
  Forall (fun x => mom_in D (snd x)) particles ->
  let ev := build sort (made mw particles weights) in
  ev_id ev = 0 /\ ev_weights ev = (if mw then weights else [last weights n0]) /\
  grouped (ev_out ev) /\ Permutation particles (particles_of (ev_out ev)).
Proof.
  intros HD Hs Hp ev. subst ev. rewrite made_eq. unfold build. cbn [ev_id ev_weights ev_out b_weights b_out].
  destruct (compress_spec HD Hs Hp) as (A & _ & C). auto.
Qed.

Lemma with_id_perm A id (l l' : list (Z * A)) : Permutation l l' -> Permutation (with_id id l) (with_id id l').
Proof.
  intros H. unfold with_id. apply Permutation_map.
  induction H; cbn; auto.
  - destruct (fst x =? id)%Z; auto.
  - destruct (fst y =? id)%Z, (fst x =? id)%Z; auto. constructor.
  - etransitivity; eauto.
Qed.

Lemma made_lookup D sort mw particles (weights : list N) pid : cmp_on N D -> sort_ok sort ->
  Forall (fun x => mom_in D (snd x)) particles ->
  let found := outgoing_with_pid (build sort (made mw particles weights)) pid in
  Permutation (with_id pid particles) found /\ StronglySorted (fun p q => mom_le q p) found.
Proof.
  intros HD Hs Hp found. subst found.
  destruct (made_build mw weights HD Hs Hp) as (_ & _ & [G1 G2] & G3). set (ev := build _ _) in *.
  rewrite (lookup_spec pid G1). split; [apply with_id_perm; auto|].
  destruct (with_id_group pid G1) as [H1 H2].
  destruct (in_dec Z.eq_dec pid (map fst (ev_out ev))) as [Hi|Hi].
  - apply in_map_iff in Hi. destruct Hi as ([id ps] & E & Hi). cbn in E. subst id. rewrite (H1 _ Hi).
    rewrite Forall_forall in G2. apply (G2 _ Hi).
  - rewrite H2; [constructor|]. intros ps Hps. apply Hi, (in_map fst _ _ Hps).
Qed.

Lemma grouped_eqv (out out' : list (Z * list (FourVector N))) :
  StronglySorted (@desc N) out -> StronglySorted (@desc N) out' ->
  Forall (fun g => snd g <> []) out -> Forall (fun g => snd g <> []) out' ->
  Forall2 (fun x y => fst x = fst y /\ mom_eqv (snd x) (snd y)) (particles_of out) (particles_of out') ->
  Forall2 (fun g h => fst g = fst h /\ Forall2 mom_eqv (snd g) (snd h)) out out'.
Proof.
  revert out'. induction out as [|[id ps] o IH]; intros [|[id' ps'] o'] S1 S2 N1 N2 H; cbn in H.
  - constructor.
  - exfalso. inversion N2; subst. cbn in *. destruct ps'; [congruence|]. inversion H.
  - exfalso. inversion N1; subst. cbn in *. destruct ps; [congruence|]. inversion H.
  - inversion S1 as [|? ? S3 S4]; inversion S2 as [|? ? S5 S6]; subst.
    inversion N1 as [|? ? N3 N4]; inversion N2 as [|? ? N5 N6]; subst. cbn in N3, N5.
    assert (Hid : id = id').
    { destruct ps, ps'; try congruence. inversion H; subst. cbn in *. tauto. }
    subst id'.
    assert (Hnot : forall (o : list (Z * list (FourVector N))), Forall (desc (id, ps)) o ->
              forall x, In x (particles_of o) -> fst x <> id).
    { intros q Hq [i p] Hx. apply particles_in in Hx. destruct Hx as (qs & Hx & _).
      rewrite Forall_forall in Hq. specialize (Hq _ Hx). unfold desc in Hq. cbn in *. lia. }
    assert (S6' : Forall (desc (id, ps)) o').
    { eapply Forall_impl; [|exact S6]. unfold desc. cbn. auto. }
    assert (Hsplit : Forall2 mom_eqv ps ps' /\ Forall2 (fun x y => fst x = fst y /\ mom_eqv (snd x) (snd y))
              (particles_of o) (particles_of o')).
    { change (Forall2 (fun x y => fst x = fst y /\ mom_eqv (snd x) (snd y))
        (map (pair id) ps ++ particles_of o) (map (pair id) ps' ++ particles_of o')) in H.
      generalize (Hnot o S4) (Hnot o' S6'). revert H. generalize (particles_of o) (particles_of o'). clear.
      intros l l' H N1 N2. revert ps' H. induction ps as [|p ps IH]; intros [|p' ps'] H; cbn in H.
      - auto.
      - exfalso. destruct l as [|y l]; inversion H as [|? ? ? ? E1 E2]; subst.
        apply (N1 y); [left; auto|exact (proj1 E1)].
      - exfalso. destruct l' as [|y l']; inversion H as [|? ? ? ? E1 E2]; subst.
        apply (N2 y); [left; auto|exact (eq_sym (proj1 E1))].
      - inversion H as [|? ? ? ? E1 E2]; subst. cbn in E1. destruct (IH ps' E2) as [A B]. split; auto.
        constructor; tauto. }
    destruct Hsplit as [A B]. constructor; [split; auto|]. apply IH; auto.
Qed.

Lemma made_order D sort mw particles particles' (weights : list N) : cmp_on N D -> sort_ok sort ->
  Forall (fun x => mom_in D (snd x)) particles -> Permutation particles particles' ->
  let ev := build sort (made mw particles weights) in
  let ev' := build sort (made mw particles' weights) in
  ev_id ev = ev_id ev' /\ ev_weights ev = ev_weights ev' /\
  Forall2 (fun g h => fst g = fst h /\ Forall2 mom_eqv (snd g) (snd h)) (ev_out ev) (ev_out ev').
Proof.
  intros HD Hs Hp Hperm ev ev'. subst ev ev'. rewrite !made_eq. unfold build.
  cbn [ev_id ev_weights ev_out b_weights b_out]. split; auto. split; auto.
  assert (Hp' : Forall (fun x => mom_in D (snd x)) particles') by (eapply Permutation_Forall; eauto).
  destruct (compress_spec HD Hs Hp) as ([A1 A2] & A3 & _).
  destruct (compress_spec HD Hs Hp') as ([B1 B2] & B3 & _).
  assert (G : forall o : list (Z * list (FourVector N)),
    Forall (fun g => snd g <> [] /\ StronglySorted (fun p q => mom_le q p) (snd g)) o ->
    Forall (fun g => snd g <> []) o) by (intros o; apply Forall_impl; tauto).
  apply grouped_eqv; auto. rewrite A3, B3.
  destruct (Hs _ _ _ (out_preorder HD Hp)) as [P1 O1]. destruct (Hs _ _ _ (out_preorder HD Hp')) as [P2 O2].
  set (l := sort _ _ particles) in *. set (l' := sort _ _ particles') in *.
  assert (Hl : Forall (part_in D) l) by (eapply Permutation_Forall; eauto).
  assert (Hl' : Forall (part_in D) l') by (eapply Permutation_Forall; eauto).
  assert (F : Forall2 (eqv out_geb) l l').
  { apply (@insert_eqv _ out_geb (fun x => In x l)); auto.
    - apply (out_preorder HD Hl).
    - apply Forall_forall. auto.
    - rewrite <- P1, Hperm. exact P2. }
  clear - F Hl Hl' HD. induction F as [|x y l l' [E1 E2] F IH]; constructor.
  - inversion Hl; inversion Hl'; subst. unfold out_geb in *. rewrite (Z.compare_antisym (fst x) (fst y)) in E1.
    destruct (Z.compare_spec (fst x) (fst y)); cbn in *; try discriminate. split; auto.
    apply (fv_eqv_spec HD); auto.
  - inversion Hl; inversion Hl'; subst. auto.
Qed.

End Made.

Lemma mom_eqv_RN (p q : FourVector RN) : mom_eqv p q -> p = q.
Proof.
  destruct p, q. unfold mom_eqv, coords. cbn. intros H.
  repeat match goal with H : Forall2 _ (_ :: _) _ |- _ => inversion H; clear H; subst end.
  repeat match goal with H : Reqb _ _ = true |- _ => apply Reqb_true in H end. subst. reflexivity.
Qed.

Lemma made_order_exact sort mw particles particles' (weights : list R) : sort_ok sort ->
  Permutation particles particles' ->
  build sort (made (N := RN) mw particles weights) = build sort (made (N := RN) mw particles' weights).
Proof.
  intros Hs Hp. destruct (@made_order RN (fun _ => True) sort mw particles particles' weights) as (A & B & C); auto using RN_cmp.
  { apply Forall_forall. intros x _. repeat constructor. }
  revert A B C. generalize (build sort (made (N := RN) mw particles weights)) (build sort (made (N := RN) mw particles' weights)).
  intros [i w o] [i' w' o'] A B C. cbn in *. subst.
  f_equal. clear - C. induction C as [|[a b] [c d] l l' [E1 E2] F IH]; auto. cbn in *. subst. f_equal; auto.
  f_equal. clear - E2. induction E2 as [|x y l l' E F IH]; auto. f_equal; auto. apply mom_eqv_RN; auto.
Qed.
