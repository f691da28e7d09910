(** Proofs about src/io.rs. *)
From Verif Require Import Base BaseProofs Num ModelEvent ModelText SpecText SpecFormats TextProofs ReaderProofs
  ModelHepMC ModelLHEF ModelStripper ModelIO SpecIO FileProofs FileProofs2 FileProofs3.
From Coq Require Import Lia.

Lemma skipn_nth_cons A (l : list A) : forall i x, nth_error l i = Some x -> skipn i l = x :: skipn (S i) l.
Proof. induction l as [|a l IH]; intros [|i] x H; try discriminate; cbn in *. - congruence. - rewrite (IH _ _ H). reflexivity. Qed.
Lemma skipn_head A (l : list A) : forall i x rest, skipn i l = x :: rest -> nth_error l i = Some x.
Proof. induction l as [|a l IH]; intros [|i] x rest H; try discriminate; cbn in *. - congruence. - eapply IH. exact H. Qed.
Lemma skipn_twice A n : forall m (l : list A), skipn n (skipn m l) = skipn (m + n) l.
Proof. induction m as [|m IH]; intros [|x l]; cbn [skipn Nat.add]; try reflexivity. - apply skipn_nil. - apply IH. Qed.
Lemma Forall2_nth A B (P : A -> B -> Prop) l m : Forall2 P l m -> forall i a, nth_error l i = Some a -> exists b, nth_error m i = Some b /\ P a b.
Proof. induction 1; intros [|i] z E; try discriminate; cbn in *. - injection E as <-. eauto. - eauto. Qed.

Section Proofs.
Context (N : NumOps) (double : parser N) (show : N -> text) (xml_info : text -> option (text * BinNums.N))
  (checks mw : bool) (names : list text) (scaling : list (text * N)).
Notation build := (build_from_files xml_info checks scaling).
Notation fnext := (fio_next double show checks).
Notation fupdate := (fio_update double show checks mw names).
Notation copen := (cio_open xml_info checks scaling).
Notation cnext := (cio_next double show xml_info checks scaling).

(** *** Reading records as they are *)
Definition raw_next (f : fio N) : step (fio N) :=
  match f with
  | IOHepMC r => match hepmc_next r with None => Panicked | Some (None, r) => Finished (IOHepMC r) | Some (Some x, r) => Item x (IOHepMC r) end
  | IOLhef r => match lhef_next r with None => Panicked | Some (None, r) => Finished (IOLhef r) | Some (Some x, r) => Item x (IOLhef r) end
  | IOStripper r scale =>
      match stripper_read_raw checks r with
      | SPanic => Panicked
      | SEnd => Finished (IOStripper (mkSReader (sr_file r) [] (sr_rem r) (sr_header r)) scale)
      | SUtf8Error r => Failed (InvalidEntry "utf8") (IOStripper r scale)
      | SRecord x r => Item x (IOStripper r scale)
      end
  end.
Definition upd (f : fio N) (w : list N) (record : text) : res text :=
  match f with
  | IOHepMC _ => hepmc_update show mw names w record
  | IOLhef _ => lhef_update show mw w record
  | IOStripper _ scale => stripper_update double show mw scale w record
  end.
Definition same_kind (f g : fio N) : Prop :=
  match f, g with IOHepMC _, IOHepMC _ | IOLhef _, IOLhef _ => True | IOStripper _ s, IOStripper _ t => s = t | _, _ => False end.
Lemma same_kind_refl f : same_kind f f. Proof. destruct f; cbn; auto. Qed.
Lemma same_kind_trans f g h : same_kind f g -> same_kind g h -> same_kind f h.
Proof. destruct f, g, h; cbn; intuition congruence. Qed.
Lemma same_kind_finish f g : same_kind f g -> fio_finish f = fio_finish g.
Proof. destruct f, g; cbn; tauto. Qed.
Lemma same_kind_upd f g : same_kind f g -> upd f = upd g.
Proof. destruct f, g; cbn; intros H; try contradiction; try reflexivity. subst. reflexivity. Qed.

Lemma fupdate_raw f w : fupdate w f =
  match raw_next f with
  | Panicked => Panic
  | Finished f' => Ok (None, f')
  | Failed e _ => Err e
  | Item x f' => bind (upd f w x) (fun t => Ok (Some t, f'))
  end.
Proof.
  destruct f as [r|r|r scale]; cbn.
  - destruct (hepmc_next r) as [[[x|] r']|]; reflexivity.
  - destruct (lhef_next r) as [[[x|] r']|]; reflexivity.
  - destruct (stripper_read_raw checks r); reflexivity.
Qed.
Lemma raw_next_kind f x f' : (raw_next f = Item x f' \/ raw_next f = Finished f') -> same_kind f f'.
Proof.
  destruct f as [r|r|r scale]; cbn.
  - destruct (hepmc_next r) as [[[y|] r']|]; intros [H|H]; inversion H; subst; exact I.
  - destruct (lhef_next r) as [[[y|] r']|]; intros [H|H]; inversion H; subst; exact I.
  - destruct (stripper_read_raw checks r); intros [H|H]; inversion H; subst; reflexivity.
Qed.
Lemma delivers_kind f l f' : delivers raw_next f l f' -> same_kind f f'.
Proof.
  induction 1 as [f f' H|f x f1 l f' H _ IH].
  - apply (raw_next_kind f [] f'). right. exact H.
  - eapply same_kind_trans; [|exact IH]. eapply raw_next_kind. left. exact H.
Qed.

Lemma hepmc_delivers : forall fuel r l, hepmc_rest fuel r = Some l -> exists r', delivers raw_next (IOHepMC r) l (IOHepMC r').
Proof.
  induction fuel as [|fuel IH]; intros r l H; cbn [hepmc_rest] in H; [discriminate|].
  destruct (hepmc_next r) as [[[x|] r1]|] eqn:E; [|injection H as <-; exists r1; apply d_end; cbn; rewrite E; reflexivity|discriminate].
  destruct (hepmc_rest fuel r1) as [l'|] eqn:E1; [|discriminate]. injection H as <-. destruct (IH _ _ E1) as [r' Hr'].
  exists r'. eapply d_item; [|exact Hr']. cbn. rewrite E. reflexivity.
Qed.
Lemma lhef_delivers : forall fuel r l, lhef_rest fuel r = Some l -> exists r', delivers raw_next (IOLhef r) l (IOLhef r').
Proof.
  induction fuel as [|fuel IH]; intros r l H; cbn [lhef_rest] in H; [discriminate|].
  destruct (lhef_next r) as [[[x|] r1]|] eqn:E; [|injection H as <-; exists r1; apply d_end; cbn; rewrite E; reflexivity|discriminate].
  destruct (lhef_rest fuel r1) as [l'|] eqn:E1; [|discriminate]. injection H as <-. destruct (IH _ _ E1) as [r' Hr'].
  exists r'. eapply d_item; [|exact Hr']. cbn. rewrite E. reflexivity.
Qed.
Lemma stripper_delivers scale : forall fuel r l e, stripper_rest checks fuel r = Some (l, e) -> delivers raw_next (IOStripper r scale) l (IOStripper e scale).
Proof.
  induction fuel as [|fuel IH]; intros r l e H; cbn [stripper_rest] in H; [discriminate|].
  destruct (stripper_read_raw checks r) as [|x r1|r1|] eqn:E; try discriminate.
  - injection H as <- <-. apply d_end. cbn. rewrite E. reflexivity.
  - destruct (stripper_rest checks fuel r1) as [[l' e']|] eqn:E1; [|discriminate]. injection H as <- <-.
    eapply d_item; [|apply IH; exact E1]. cbn. rewrite E. reflexivity.
Qed.

Lemma build_open file r scale : build file = Ok (IOStripper r scale) -> exists n, stripper_open checks n file = Some r /\ detect_event_file_format file = StripperXml.
Proof.
  unfold build_from_files. destruct (detect_event_file_format file); try discriminate. unfold stripper_open.
  destruct (stripper_init checks file) as [[h s]|]; [|discriminate]. destruct (xml_info h) as [[n k]|]; [|discriminate].
  destruct (lookup_scale scaling n); [|discriminate]. intros H. injection H as <- _. exists k. auto.
Qed.

Lemma records_raw file l : file_records xml_info checks scaling file l -> exists f f', build file = Ok f /\ delivers raw_next f l f'.
Proof.
  unfold file_records. unfold build_from_files at 2. destruct (detect_event_file_format file) eqn:Ed.
  - intros H. destruct (hepmc_delivers _ _ _ H) as [r' Hr']. eauto.
  - intros H. destruct (lhef_delivers _ _ _ H) as [r' Hr']. eauto.
  - intros [].
  - intros (r & scale & e & Hb & Hr). unfold build_from_files in Hb. rewrite Ed in Hb. rewrite Hb.
    exists (IOStripper r scale), (IOStripper e scale). split; [reflexivity|]. eapply stripper_delivers. exact Hr.
Qed.

Lemma items_next file items : file_items double show xml_info checks scaling file items -> exists f f', build file = Ok f /\ delivers fnext f items f'.
Proof.
  intros (l & Hl & Hi). destruct (records_raw file l Hl) as (f & f' & Hb & Hd). rewrite Hb in Hi. exists f.
  destruct f as [r|r|r scale].
  - subst items. exists f'. split; [exact Hb|]. clear -Hd. remember (IOHepMC r) as f eqn:E. revert r E. induction Hd as [f f' H|f x f1 l f' H Hd IH]; intros r ->; cbn in H.
    + apply d_end. cbn. destruct (hepmc_next r) as [[[y|] r']|]; [discriminate H| |discriminate H]. exact H.
    + destruct (hepmc_next r) as [[[y|] r']|] eqn:E; try discriminate H. injection H as <- <-. eapply d_item; [cbn; rewrite E; reflexivity|]. eapply IH. reflexivity.
  - subst items. exists f'. split; [exact Hb|]. clear -Hd. remember (IOLhef r) as f eqn:E. revert r E. induction Hd as [f f' H|f x f1 l f' H Hd IH]; intros r ->; cbn in H.
    + apply d_end. cbn. destruct (lhef_next r) as [[[y|] r']|]; [discriminate H| |discriminate H]. exact H.
    + destruct (lhef_next r) as [[[y|] r']|] eqn:E; try discriminate H. injection H as <- <-. eapply d_item; [cbn; rewrite E; reflexivity|]. eapply IH. reflexivity.
  - exists f'. split; [exact Hb|]. clear -Hd Hi. remember (IOStripper r scale) as f eqn:E. revert items r E Hi. induction Hd as [f f' H|f x f1 l f' H Hd IH]; intros items r -> Hi; cbn in H.
    + inversion Hi; subst. apply d_end. cbn. destruct (stripper_read_raw checks r); try discriminate H. exact H.
    + inversion Hi as [|? y ? ys Hy Hys]; subst. destruct (stripper_read_raw checks r) as [|z r1|r1|] eqn:E; try discriminate H. injection H as <- <-.
      eapply d_item; [cbn; rewrite E, Hy; reflexivity|]. eapply IH; [reflexivity|exact Hys].
Qed.

(** *** Invariants of the state *)
Definition wf (files : list text) (s : cio N) : Prop := c_files s = files /\ length (c_outs s) = length files.

Lemma open_ok files s i file f : wf files s -> nth_error files i = Some file -> build file = Ok f ->
  exists outs, set_nth i (fio_header f) (c_outs s) = Some outs /\ length outs = length files /\
  copen i s = Ok (mkCIO files (Some f) i (c_nread s) (c_hint s) outs).
Proof.
  intros [Hf Ho] Hi Hb. unfold cio_open. rewrite Hf, Hi, Hb. cbn [bind].
  assert (Hlt : i < length (c_outs s)) by (rewrite Ho; apply nth_error_Some; congruence).
  destruct (set_nth_some (fio_header f) (c_outs s) Hlt) as [outs Eo]. exists outs. rewrite Eo. split; [reflexivity|]. split; [|reflexivity].
  destruct (set_nth_spec _ _ _ Eo) as (_ & El & _). congruence.
Qed.
Lemma open_inv files s i s' : wf files s -> copen i s = Ok s' ->
  wf files s' /\ exists file f, nth_error files i = Some file /\ build file = Ok f /\ c_current s' = Some f /\ c_idx s' = i /\ c_nread s' = c_nread s /\ c_hint s' = c_hint s.
Proof.
  intros Hw H. unfold cio_open in H. destruct (nth_error (c_files s) i) as [file|] eqn:E; [|discriminate].
  destruct Hw as [Hf Ho]. destruct (build file) as [f|e|] eqn:Eb; try discriminate. cbn [bind] in H.
  destruct (set_nth i (fio_header f) (c_outs s)) as [outs|] eqn:Eo; [|discriminate]. injection H as <-.
  destruct (set_nth_spec _ _ _ Eo) as (_ & El & _). split; [split; cbn; congruence|]. exists file, f. cbn. rewrite <- Hf. auto 10.
Qed.

Lemma init_loop_ok files : forall n i s, wf files s -> i + n = length files -> (forall j file, nth_error files j = Some file -> exists f, build file = Ok f) ->
  exists s', cio_init_loop xml_info checks scaling i n s = Ok s' /\ wf files s' /\ c_nread s' = c_nread s /\
    (exists hs, Forall2 (fun file h => exists f, build file = Ok f /\ h = fio_size_hint f) (skipn i files) hs /\ c_hint s' = fold_left combine_size_hints hs (c_hint s)).
Proof.
  induction n as [|n IH]; intros i s Hw Hin Hb; cbn [cio_init_loop].
  - exists s. split; [reflexivity|]. split; [exact Hw|]. split; [reflexivity|]. exists []. rewrite skipn_all2 by lia. split; [constructor|reflexivity].
  - destruct (nth_error files i) as [file|] eqn:E; [|apply nth_error_None in E; lia]. destruct (Hb i file E) as [f Hf].
    destruct (open_ok files s i file f Hw E Hf) as (outs & _ & Hlo & Ho). rewrite Ho. cbn [bind c_current].
    destruct (IH (S i) (mkCIO files (Some f) i (c_nread s) (combine_size_hints (c_hint s) (fio_size_hint f)) outs)) as (s' & Hs' & Hw' & Hn & (hs & Hhs & Hh)).
    + split; [reflexivity|exact Hlo].
    + lia.
    + exact Hb.
    + exists s'. cbn [c_files c_idx c_nread c_hint c_outs]. rewrite Hs'. split; [reflexivity|]. split; [exact Hw'|]. split; [exact Hn|].
      exists (fio_size_hint f :: hs). split; [|exact Hh].
      rewrite (skipn_nth_cons _ _ _ _ E). constructor; [eauto|exact Hhs].
Qed.

Lemma new_ok files : (forall j file, nth_error files j = Some file -> exists f, build file = Ok f) ->
  exists s, cio_new xml_info checks scaling files = Ok s /\ wf files s /\ c_nread s = 0 /\
    (files = [] /\ c_current s = None \/ exists file f, nth_error files 0 = Some file /\ build file = Ok f /\ c_current s = Some f /\ c_idx s = 0) /\
    (exists hs, Forall2 (fun file h => exists f, build file = Ok f /\ h = fio_size_hint f) files hs /\ c_hint s = fold_left combine_size_hints hs (0%N, Some 0%N)).
Proof.
  intros Hb. unfold cio_new, cio_init. cbn [c_files]. destruct files as [|file0 files0] eqn:Ef.
  - cbn. eexists. split; [reflexivity|]. split; [split; reflexivity|]. split; [reflexivity|]. split; [left; auto|]. exists []. split; [constructor|reflexivity].
  - rewrite <- Ef in *. replace (length files =? 0) with false by (subst; reflexivity).
    destruct (init_loop_ok files (length files) 0 (mkCIO files None 0 0 (0%N, Some 0%N) (repeat [] (length files)))) as (s1 & Hs1 & Hw1 & Hn1 & (hs & Hhs & Hh1)).
    + split; [reflexivity|]. cbn. apply repeat_length.
    + reflexivity.
    + exact Hb.
    + rewrite Hs1. cbn [bind]. assert (E0 : nth_error files 0 = Some file0) by (subst; reflexivity). destruct (Hb 0 file0 E0) as [f Hf].
      destruct (open_ok files s1 0 file0 f Hw1 E0 Hf) as (outs & _ & Hlo & Ho). rewrite Ho. eexists. split; [reflexivity|].
      split; [split; [reflexivity|exact Hlo]|]. split; [exact Hn1|]. split; [right; exists file0, f; auto|]. exists hs. split; [exact Hhs|exact Hh1].
Qed.

(** *** Reading *)
Notation cn := (fun s => cnext (cio_fuel s) s).

(** reading the rest of the current file, then the files after it *)
Definition after (files : list text) (i : nat) (items : list text) : Prop :=
  exists ls, items = concat ls /\ Forall2 (file_items double show xml_info checks scaling) (skipn i files) ls.

(** one call, which may skip over files without records *)
Lemma cn_one files : forall fuel s f, wf files s -> c_current s = Some f -> length files <= c_idx s + fuel + 1 -> c_idx s < length files ->
    forall l l2 f', delivers fnext f l f' -> after files (S (c_idx s)) l2 ->
    match l ++ l2 with
    | [] => exists s', cnext fuel s = Finished s' /\ wf files s' /\ c_nread s' = c_nread s /\ c_hint s' = c_hint s
    | x :: rest => exists s' g, cnext fuel s = Item x s' /\ wf files s' /\ c_nread s' = S (c_nread s) /\ c_hint s' = c_hint s /\
        c_current s' = Some g /\ c_idx s' < length files /\
        exists l' l2' g', rest = l' ++ l2' /\ delivers fnext g l' g' /\ after files (S (c_idx s')) l2'
    end.
Proof.
  induction fuel as [|fuel IH]; intros s f Hw Hc Hfuel Hidx l l2 f' Hd Ha.
    - (* last file *)
      assert (Hlast : c_idx s + 1 = length files) by lia. destruct Hd as [f f1 H|f x f1 l f' H Hd].
      + assert (l2 = []) as ->. { destruct Ha as (ls & -> & Hf). rewrite skipn_all2 in Hf by lia. inversion Hf. reflexivity. }
        cbn [app]. eexists. split; [cbn [cio_next]; rewrite Hc, H, (proj1 Hw), Hlast, Nat.eqb_refl; reflexivity|].
        split; [split; [reflexivity|exact (proj2 Hw)]|]. auto.
      + cbn [app]. eexists _, f1. split; [cbn [cio_next]; rewrite Hc, H; reflexivity|]. cbn. rewrite (proj1 Hw).
        split; [split; [reflexivity|exact (proj2 Hw)]|]. split; [reflexivity|]. split; [reflexivity|]. split; [reflexivity|]. split; [exact Hidx|].
        exists l, l2, f'. auto.
    - destruct Hd as [f f1 H|f x f1 l f' H Hd].
      + cbn [app]. destruct (Nat.eq_dec (c_idx s + 1) (length files)) as [Hlast|Hlast].
        * assert (l2 = []) as ->. { destruct Ha as (ls & -> & Hf). rewrite skipn_all2 in Hf by lia. inversion Hf. reflexivity. }
          eexists. split; [cbn [cio_next]; rewrite Hc, H, (proj1 Hw), Hlast, Nat.eqb_refl; reflexivity|].
          split; [split; [reflexivity|exact (proj2 Hw)]|]. auto.
        * destruct (nth_error files (c_idx s + 1)) as [file|] eqn:En; [|apply nth_error_None in En; lia].
          destruct Ha as (ls & -> & Hf). replace (S (c_idx s)) with (c_idx s + 1) in Hf by lia. rewrite (skipn_nth_cons _ _ _ _ En) in Hf.
          inversion Hf as [|? li ? ls' Hi Hls]; subst. destruct (items_next _ _ Hi) as (g & g' & Hb & Hg).
          destruct (open_ok files s _ file g Hw En Hb) as (outs & _ & Hlo & Ho).
          assert (Hstep : cnext (S fuel) s = cnext fuel (mkCIO files (Some g) (c_idx s + 1) (c_nread s) (c_hint s) outs)).
          { cbn [cio_next]. rewrite Hc, H. rewrite (proj1 Hw). replace (c_idx s + 1 =? length files) with false by (symmetry; apply Nat.eqb_neq; exact Hlast).
            rewrite Ho. reflexivity. }
          rewrite Hstep. cbn [concat].
          specialize (IH (mkCIO files (Some g) (c_idx s + 1) (c_nread s) (c_hint s) outs) g (conj eq_refl Hlo) eq_refl).
          cbn [c_idx c_nread c_hint] in IH. apply (IH ltac:(lia) ltac:(lia) li (concat ls') g' Hg).
          exists ls'. split; [reflexivity|]. exact Hls.
      + cbn [app]. eexists _, f1. split; [cbn [cio_next]; rewrite Hc, H; reflexivity|]. cbn. rewrite (proj1 Hw).
        split; [split; [reflexivity|exact (proj2 Hw)]|]. split; [reflexivity|]. split; [reflexivity|]. split; [reflexivity|]. split; [exact Hidx|].
        exists l, l2, f'. auto.
Qed.
Lemma cn_read files : forall items s f, wf files s -> c_current s = Some f -> c_idx s < length files ->
  (exists l l2 f', items = l ++ l2 /\ delivers fnext f l f' /\ after files (S (c_idx s)) l2) ->
  exists s', delivers cn s items s' /\ wf files s' /\ c_nread s' = c_nread s + length items /\ c_hint s' = c_hint s.
Proof.
  pose proof (cn_one files) as Hone.
  induction items as [|x items IH]; intros s f Hw Hc Hidx (l & l2 & f' & Hi & Hd & Ha).
  - specialize (Hone (cio_fuel s) s f Hw Hc). unfold cio_fuel in Hone at 1. rewrite (proj1 Hw) in Hone at 1. specialize (Hone ltac:(lia) Hidx l l2 f' Hd Ha).
    rewrite <- Hi in Hone. destruct Hone as (s' & H & Hw' & Hn & Hh). exists s'. split; [apply d_end; exact H|]. split; [exact Hw'|]. cbn. split; [lia|exact Hh].
  - specialize (Hone (cio_fuel s) s f Hw Hc). unfold cio_fuel in Hone at 1. rewrite (proj1 Hw) in Hone at 1. specialize (Hone ltac:(lia) Hidx l l2 f' Hd Ha).
    rewrite <- Hi in Hone. destruct Hone as (s1 & g & H & Hw1 & Hn & Hh & Hc1 & Hidx1 & Hrest).
    destruct (IH s1 g Hw1 Hc1 Hidx1) as (s' & Hd' & Hw' & Hn' & Hh').
    { destruct Hrest as (l' & l2' & g' & E1 & E2 & E3). exists l', l2', g'. auto. }
    exists s'. split; [eapply d_item; [exact H|exact Hd']|]. split; [exact Hw'|]. cbn [length]. split; [lia|congruence].
Qed.

Lemma cio_read files ls s : Forall2 (file_items double show xml_info checks scaling) files ls -> cio_new xml_info checks scaling files = Ok s ->
  exists s', delivers cn s (concat ls) s' /\ c_nread s' = length (concat ls).
Proof.
  intros Hf Hn. assert (Hb : forall j file, nth_error files j = Some file -> exists f, build file = Ok f).
  { intros j file E. destruct (Forall2_nth _ _ _ _ _ Hf j file E) as (l & _ & Hl). destruct (items_next _ _ Hl) as (f & _ & H & _). eauto. }
  destruct (new_ok files Hb) as (s0 & Hs0 & Hw & Hr & Hcase & _). rewrite Hn in Hs0. injection Hs0 as <-.
  destruct Hcase as [[-> Hc]|(file & f & E0 & Hbf & Hc & Hi)].
  - inversion Hf; subst. cbn. exists s. split; [|exact Hr]. apply d_end. unfold cio_fuel. cbn [cio_next]. rewrite Hc, (proj1 Hw). reflexivity.
  - destruct files as [|file0 files]; [discriminate|]. injection E0 as ->. inversion Hf as [|? l0 ? ls' Hl0 Hls]; subst.
    destruct (items_next _ _ Hl0) as (g & g' & Hg & Hd). rewrite Hbf in Hg. injection Hg as <-.
    destruct (cn_read (file :: files) (l0 ++ concat ls') s f Hw Hc) as (s' & Hd' & _ & Hr' & _).
    + rewrite Hi. cbn. lia.
    + exists l0, (concat ls'), g'. split; [reflexivity|]. split; [exact Hd|]. exists ls'. split; [reflexivity|]. rewrite Hi. exact Hls.
    + exists s'. split; [exact Hd'|]. cbn [concat]. lia.
Qed.

(** after a rewind *)
Lemma cio_read_again files ls s : Forall2 (file_items double show xml_info checks scaling) files ls -> wf files s ->
  exists s', delivers cn (cio_rewind s) (concat ls) s' /\ c_nread s' = length (concat ls).
Proof.
  intros Hf Hw. assert (Hw2 : wf files (cio_rewind s)) by (destruct Hw; split; assumption).
  destruct files as [|file files].
  - inversion Hf; subst. exists (cio_rewind s). split; [|reflexivity]. apply d_end. unfold cio_fuel. cbn [cio_next c_current cio_rewind c_files]. rewrite (proj1 Hw). reflexivity.
  - inversion Hf as [|? l0 ? ls' Hl0 Hls]; subst. destruct (items_next _ _ Hl0) as (f & f' & Hb & Hd).
    destruct (open_ok (file :: files) (cio_rewind s) 0 file f Hw2 eq_refl Hb) as (outs & _ & Hlo & Ho).
    set (s1 := mkCIO (file :: files) (Some f) 0 (c_nread (cio_rewind s)) (c_hint (cio_rewind s)) outs) in *.
    assert (Hstep : forall fuel, cnext (S fuel) (cio_rewind s) = cnext fuel s1).
    { intros fuel. cbn [cio_next]. cbn [c_current cio_rewind c_files]. rewrite (proj1 Hw). cbn [length Nat.eqb]. rewrite Ho. reflexivity. }
    assert (Hone := cn_one (file :: files) (length (file :: files)) s1 f (conj eq_refl Hlo) eq_refl ltac:(cbn; lia) ltac:(cbn; lia) l0 (concat ls') f' Hd
                       (ex_intro _ ls' (conj eq_refl Hls))).
    assert (Hfuel : cio_fuel (cio_rewind s) = S (length (file :: files))) by (unfold cio_fuel; cbn; rewrite (proj1 Hw); reflexivity).
    cbn [concat]. destruct (l0 ++ concat ls') as [|x rest] eqn:El.
    + destruct Hone as (s' & H & _ & Hn & _). exists s'. split; [|exact Hn]. apply d_end. rewrite Hfuel, Hstep. exact H.
    + destruct Hone as (s2 & g & H & Hw3 & Hn & _ & Hc & Hi & Hr). destruct (cn_read (file :: files) rest s2 g Hw3 Hc Hi Hr) as (s' & Hd' & _ & Hn' & _).
      exists s'. split; [|rewrite Hn', Hn; reflexivity]. eapply d_item; [|exact Hd']. cbv beta. rewrite Hfuel, Hstep. exact H.
Qed.

(** *** Size hints *)
Lemma delivers_split (S : Type) (next : S -> step S) : forall l1 l2 s s', delivers next s (l1 ++ l2) s' -> exists s1, delivers_first next s l1 s1 /\ delivers next s1 l2 s'.
Proof.
  induction l1 as [|x l1 IH]; intros l2 s s' H; cbn [app] in H.
  - exists s. split; [constructor|exact H].
  - inversion H as [|? ? s1 ? ? Hn Hd]; subst. destruct (IH _ _ _ Hd) as (s2 & H1 & H2). exists s2. split; [econstructor; eassumption|exact H2].
Qed.
Lemma delivers_first_det (S : Type) (next : S -> step S) : forall l s s1, delivers_first next s l s1 -> forall s2, delivers_first next s l s2 -> s1 = s2.
Proof.
  induction 1 as [s|s x s1 l s' H Hd IH]; intros s2 H2; inversion H2; subst; [reflexivity|]. apply IH. congruence.
Qed.
Lemma cn_nread files : forall fuel s x s', wf files s -> cnext fuel s = Item x s' -> wf files s' /\ c_nread s' = S (c_nread s) /\ c_hint s' = c_hint s.
Proof.
  induction fuel as [|fuel IH]; intros s x s' Hw H; cbn [cio_next] in H.
  - destruct (c_current s) as [f|]; [|destruct (length (c_files s) =? 0); discriminate].
    destruct (fnext f) as [g|y g|e g|]; try discriminate.
    + destruct (c_idx s + 1 =? length (c_files s)); discriminate.
    + injection H as <- <-. split; [exact Hw|]. auto.
  - assert (Ho : forall i, match copen i s with Ok s => cnext fuel s | Err e => Failed e s | Panic => Panicked end = Item x s' ->
               wf files s' /\ c_nread s' = S (c_nread s) /\ c_hint s' = c_hint s).
    { intros i Hi. destruct (copen i s) as [s1|e|] eqn:E; try discriminate. destruct (open_inv _ _ _ _ Hw E) as (Hw1 & _ & _ & _ & _ & _ & _ & Hn & Hh).
      rewrite <- Hn, <- Hh. eapply IH; eassumption. }
    destruct (c_current s) as [f|].
    + destruct (fnext f) as [g|y g|e g|]; try discriminate.
      * destruct (c_idx s + 1 =? length (c_files s)); [discriminate|]. apply (Ho _ H).
      * injection H as <- <-. split; [exact Hw|]. auto.
    + destruct (length (c_files s) =? 0); [discriminate|]. apply (Ho _ H).
Qed.
Lemma cn_first files l : forall s s', wf files s -> delivers_first cn s l s' -> wf files s' /\ c_nread s' = c_nread s + length l /\ c_hint s' = c_hint s.
Proof.
  induction l as [|x l IH]; intros s s' Hw H; inversion H as [|? ? s1 ? ? Hn Hd]; subst.
  - cbn. split; [exact Hw|]. split; [lia|reflexivity].
  - destruct (cn_nread files _ _ _ _ Hw Hn) as (Hw1 & Hn1 & Hh1). destruct (IH _ _ Hw1 Hd) as (Hw2 & Hn2 & Hh2). split; [exact Hw2|]. cbn [length]. split; [lia|congruence].
Qed.

(** the number of records a file announces is right, if it announces one *)
Definition truthful (file : text) (items : list text) : Prop :=
  forall r scale, build file = Ok (IOStripper r scale) -> sr_rem r = N.of_nat (length items).
Lemma hints_sum files ls hs : Forall2 truthful files ls ->
  Forall2 (fun file h => exists f, build file = Ok f /\ h = fio_size_hint f) files hs ->
  forall lo hi n, (lo <= N.of_nat n)%N -> (forall u, hi = Some u -> u = N.of_nat n) ->
  let h := fold_left combine_size_hints hs (lo, hi) in
  (fst h <= N.of_nat (n + length (concat ls)))%N /\ (forall u, snd h = Some u -> u = N.of_nat (n + length (concat ls))).
Proof.
  intros Ht. revert hs. induction Ht as [|file items files ls Hti Ht IH]; intros hs Hf; inversion Hf as [|? h ? hs' (f & Hb & Hh) Hf']; subst; intros lo hi n Hlo Hhi.
  - cbn. rewrite Nat.add_0_r. split; assumption.
  - cbn [concat fold_left]. rewrite app_length, Nat.add_assoc. apply (IH hs' Hf').
    + cbn. destruct f; cbn; try lia. rewrite (Hti _ _ Hb). lia.
    + cbn. intros u. destruct f; cbn; destruct hi; try discriminate. intros E. injection E as <-. rewrite (Hti _ _ Hb), (Hhi _ eq_refl). lia.
Qed.
Lemma cio_hint files ls s l1 l2 s1 : Forall2 (file_items double show xml_info checks scaling) files ls -> Forall2 truthful files ls ->
  cio_new xml_info checks scaling files = Ok s -> concat ls = l1 ++ l2 -> delivers_first cn s l1 s1 ->
  (fst (cio_size_hint s1) <= N.of_nat (length l2))%N /\ (forall u, snd (cio_size_hint s1) = Some u -> u = N.of_nat (length l2)).
Proof.
  intros Hf Ht Hn Hl Hd. assert (Hb : forall j file, nth_error files j = Some file -> exists f, build file = Ok f).
  { intros j file E. destruct (Forall2_nth _ _ _ _ _ Hf j file E) as (l & _ & Hl'). destruct (items_next _ _ Hl') as (f & _ & H & _). eauto. }
  destruct (new_ok files Hb) as (s0 & Hs0 & Hw & Hr & _ & (hs & Hhs & Hh)). rewrite Hn in Hs0. injection Hs0 as <-.
  destruct (cn_first files l1 s s1 Hw Hd) as (_ & Hn1 & Hh1). unfold cio_size_hint. rewrite Hh1, Hn1, Hr, Hh.
  destruct (hints_sum files ls hs Ht Hhs 0%N (Some 0%N) 0 ltac:(cbn; lia)) as [H1 H2]. { intros u E. injection E as <-. reflexivity. }
  rewrite Hl, app_length in H1, H2. cbn [Nat.add] in *. cbn [fst snd]. split; [lia|].
  intros u. destruct (snd (fold_left combine_size_hints hs (0%N, Some 0%N))) as [v|] eqn:E; [|discriminate]. cbn. intros Hu. injection Hu as <-. rewrite (H2 _ eq_refl). lia.
Qed.

(** *** Rewriting *)
Lemma append_at a (o : text) b t i : length a = i -> append i t (a ++ o :: b) = a ++ (o ++ t) :: b.
Proof.
  intros <-. unfold append. rewrite firstn_app, firstn_all, Nat.sub_diag. cbn [firstn]. rewrite app_nil_r.
  rewrite skipn_app, skipn_all, Nat.sub_diag. reflexivity.
Qed.
Lemma set_nth_at A (x : A) : forall i l l', set_nth i x l = Some l' -> l' = firstn i l ++ x :: skipn (S i) l.
Proof.
  induction i as [|i IH]; intros [|a l] l' H; cbn [set_nth] in H; try discriminate.
  - injection H as <-. reflexivity.
  - destruct (set_nth i x l) as [m|] eqn:E; [|discriminate]. injection H as <-. rewrite (IH _ _ E). reflexivity.
Qed.
Lemma update_file : forall ws s f l f' a o b, c_current s = Some f -> delivers raw_next f l f' -> length a = c_idx s -> c_outs s = a ++ o :: b ->
  exists f2, same_kind f f2 /\
  cio_update_file double show checks mw names ws s =
    bind (update_list (upd f) ws l) (fun ts =>
      Ok (skipn (length l) ws, mkCIO (c_files s) (Some f2) (c_idx s) (c_nread s) (c_hint s) (a ++ (o ++ concat ts) :: b))).
Proof.
  induction ws as [|w ws IH]; intros s f l f' a o b Hc Hd Ha Ho; cbn [cio_update_file update_list].
  - exists f. split; [apply same_kind_refl|]. cbn [bind concat]. rewrite skipn_nil, app_nil_r. rewrite <- Hc. destruct s; cbn in *; subst; reflexivity.
  - rewrite Hc, fupdate_raw. destruct Hd as [f f1 H|f x f1 l f' H Hd]; rewrite H.
    + exists f1. split; [apply (raw_next_kind f [] f1); auto|]. cbn [bind length skipn concat]. unfold cio_write. rewrite Ho, (append_at _ _ _ _ _ Ha). reflexivity.
    + assert (Hk : same_kind f f1) by (apply (raw_next_kind f x f1); auto).
      destruct (IH (cio_write [] f1 s) f1 l f' a o b eq_refl Hd) as (f2 & Hk2 & _).
      { exact Ha. } { cbn. rewrite Ho, (append_at _ _ _ _ _ Ha), app_nil_r. reflexivity. }
      destruct (upd f w x) as [t|e|] eqn:Eu; cbn [bind]; [|exists f2; split; [eapply same_kind_trans; eassumption|reflexivity]..].
      destruct (IH (cio_write t f1 s) f1 l f' a (o ++ t) b eq_refl Hd) as (f3 & Hk3 & E3).
      { exact Ha. } { cbn. rewrite Ho, (append_at _ _ _ _ _ Ha). reflexivity. }
      exists f3. split; [eapply same_kind_trans; eassumption|]. rewrite E3. rewrite (same_kind_upd _ _ Hk). destruct (update_list (upd f1) ws l) as [ts|e|]; cbn [bind]; try reflexivity.
      cbn [length skipn concat c_files c_idx c_nread c_hint cio_write]. rewrite <- app_assoc. reflexivity.
Qed.
Lemma update_list_firstn A (u : A -> text -> res text) : forall l ws, update_list u (firstn (length l) ws) l = update_list u ws l.
Proof.
  induction l as [|x l IH]; intros [|w ws]; try reflexivity. cbn [length firstn update_list]. rewrite IH. reflexivity.
Qed.
Lemma file_rewrite_list file l f f' ws : file_records xml_info checks scaling file l -> build file = Ok f -> delivers raw_next f l f' -> length ws <= length l ->
  file_rewrite double show xml_info checks mw names scaling file ws =
    bind (update_list (upd f) ws l) (fun ts => Ok (fio_header f ++ concat ts ++ fio_finish f, length ts)).
Proof.
  intros Hr Hb Hd Hw. unfold file_rewrite. rewrite Hb. unfold file_records in Hr.
  destruct (detect_event_file_format file) eqn:Ed.
  - unfold build_from_files in Hb. rewrite Ed in Hb. injection Hb as <-. rewrite (hepmc_rewrite_list N show mw names ws file l Hr). cbn [fio_header fio_finish]. change (upd (IOHepMC (hepmc_open file))) with (hepmc_update show mw names).
    destruct (update_list (hepmc_update show mw names) ws l) as [ts|e|]; cbn [bind]; try reflexivity. rewrite app_nil_r. reflexivity.
  - unfold build_from_files in Hb. rewrite Ed in Hb. injection Hb as <-. rewrite (lhef_rewrite_list N show mw ws file l Hr). cbn [upd fio_header fio_finish].
    replace (length ws <=? length l) with true by (symmetry; apply Nat.leb_le; exact Hw). reflexivity.
  - contradiction.
  - destruct Hr as (r & scale & e & Hb' & Hs). rewrite Hb' in Hb. injection Hb as <-. destruct (build_open _ _ _ Hb') as (n & Ho & _).
    rewrite (stripper_update_all_list N double show checks mw scale ws n file r l e Ho Hs). cbn [fio_header fio_finish]. change (upd (IOStripper r scale)) with (stripper_update double show mw scale).
    destruct (update_list (stripper_update double show mw scale) ws l) as [ts|e'|]; cbn [bind]; try reflexivity. rewrite app_nil_r. reflexivity.
Qed.

Lemma update_files files : forall ls n idx ws s, Forall2 (file_records xml_info checks scaling) (skipn idx files) ls -> n = length ls -> wf files s ->
  match sequence (map (fun x => file_rewrite double show xml_info checks mw names scaling (fst x) (snd x)) (combine (skipn idx files) (deal (map (@length text) ls) ws))) with
  | Ok rs => exists s', cio_update_files double show xml_info checks mw names scaling idx n ws s = Ok (skipn (list_sum (map (@length text) ls)) ws, s') /\
      wf files s' /\ c_outs s' = firstn idx (c_outs s) ++ map fst rs
  | Err e => cio_update_files double show xml_info checks mw names scaling idx n ws s = Err e
  | Panic => cio_update_files double show xml_info checks mw names scaling idx n ws s = Panic
  end.
Proof.
  induction ls as [|l ls IH]; intros n idx ws s Hf -> Hw.
  - inversion Hf as [Hs|]. cbn. exists s. split; [reflexivity|]. split; [exact Hw|]. rewrite app_nil_r.
    rewrite firstn_all2; [reflexivity|]. rewrite (proj2 Hw). destruct (Nat.le_gt_cases (length files) idx) as [?|Hlt]; [assumption|].
    exfalso. assert (length (skipn idx files) = 0) by (rewrite <- Hs; reflexivity). rewrite skipn_length in H. lia.
  - inversion Hf as [|file ? rest ? Hl Hls Hs]; subst. cbn [length].
    assert (En : nth_error files idx = Some file). { apply skipn_head with rest. symmetry. exact Hs. }
    assert (Hsk : rest = skipn (S idx) files). { rewrite (skipn_nth_cons _ _ _ _ En) in Hs. congruence. }
    destruct (records_raw file l Hl) as (f & f' & Hb & Hd).
    destruct (open_ok files s idx file f Hw En Hb) as (outs & Hset & Hlo & Ho).
    assert (Hidx : idx < length files) by (apply nth_error_Some; congruence).
    apply set_nth_at in Hset.
    assert (Hla : length (firstn idx (c_outs s)) = idx) by (rewrite firstn_length, (proj2 Hw); lia).
    destruct (update_file ws (mkCIO files (Some f) idx (c_nread s) (c_hint s) outs) f l f' (firstn idx (c_outs s)) (fio_header f) (skipn (S idx) (c_outs s)) eq_refl Hd Hla Hset) as (f2 & Hk & Hu).
    cbn [map deal combine sequence fst snd cio_update_files]. rewrite Ho. cbn [bind]. rewrite Hu.
    rewrite (file_rewrite_list file l f f' _ Hl Hb Hd) by (rewrite firstn_length; lia). rewrite update_list_firstn.
    destruct (update_list (upd f) ws l) as [ts|e|]; cbn [bind]; [|reflexivity..]. cbn [c_current].
    set (s2 := cio_write (fio_finish f2) f2 _).
    assert (Ho2 : c_outs s2 = firstn idx (c_outs s) ++ (fio_header f ++ concat ts ++ fio_finish f) :: skipn (S idx) (c_outs s)).
    { unfold s2. cbn [cio_write c_outs c_idx]. rewrite (append_at _ _ _ _ _ Hla), (same_kind_finish _ _ Hk), <- app_assoc. reflexivity. }
    assert (Hw2 : wf files s2). { split; [reflexivity|]. rewrite Ho2, app_length, Hla. cbn [length]. rewrite skipn_length, (proj2 Hw). lia. }
    rewrite Hsk. rewrite Hsk in Hls. specialize (IH (length ls) (S idx) (skipn (length l) ws) s2 Hls eq_refl Hw2).
    destruct (sequence (map _ (combine (skipn (S idx) files) _))) as [rs|e|]; cbn [bind].
    + destruct IH as (s' & E & Hw' & Ho'). exists s'. split; [|split; [exact Hw'|]].
      * rewrite E. cbn [list_sum fold_right map]. rewrite skipn_twice. reflexivity.
      * rewrite Ho', Ho2. cbn [map fst]. rewrite firstn_app, Hla. replace (S idx - idx) with 1 by lia. rewrite firstn_all2 by (rewrite Hla; lia).
        cbn [firstn]. rewrite <- app_assoc. reflexivity.
    + exact IH.
    + exact IH.
Qed.

Lemma cio_update files ls ws s : Forall2 (file_records xml_info checks scaling) files ls -> wf files s ->
  match sequence (map (fun x => file_rewrite double show xml_info checks mw names scaling (fst x) (snd x)) (combine files (deal (map (@length text) ls) ws))) with
  | Ok rs => exists s', cio_update_all double show xml_info checks mw names scaling ws s = Ok (Nat.min (length ws) (list_sum (map (@length text) ls)), s') /\
      wf files s' /\ c_outs s' = map fst rs
  | Err e => cio_update_all double show xml_info checks mw names scaling ws s = Err e
  | Panic => cio_update_all double show xml_info checks mw names scaling ws s = Panic
  end.
Proof.
  intros Hf Hw. assert (Hw2 : wf files (cio_rewind s)) by (destruct Hw; split; assumption).
  assert (Hlen : length files = length ls) by (clear -Hf; induction Hf; cbn; congruence).
  pose proof (update_files files ls (length files) 0 ws (cio_rewind s) Hf Hlen Hw2) as H. cbn [skipn] in H. unfold cio_update_all. rewrite (proj1 Hw).
  destruct (sequence _) as [rs|e|].
  - destruct H as (s' & -> & Hw' & Ho). cbn [bind]. exists s'. rewrite skipn_length. split; [|split; [exact Hw'|exact Ho]]. do 2 f_equal. lia.
  - rewrite H. reflexivity.
  - rewrite H. reflexivity.
Qed.

(** *** [update_next_weights] *)
Notation cupdate := (cio_update_next double show xml_info checks mw names scaling).
Lemma never_false files : forall fuel w s s', wf files s -> c_idx s < length files -> cupdate fuel w s <> Ok (false, s').
Proof.
  induction fuel as [|fuel IH]; intros w s s' Hw Hi H; cbn [cio_update_next] in H; rewrite (proj1 Hw) in H;
    replace (c_idx s <? length files) with true in H by (symmetry; apply Nat.ltb_lt; exact Hi);
    (destruct (c_current s) as [f|]; [|discriminate]); (destruct (fupdate w f) as [[[t|] f1]|e|]; try discriminate); cbn [bind] in H.
  - destruct (copen _ _); discriminate.
  - destruct (copen (c_idx s + 1) (cio_write (fio_finish f1) f1 s)) as [s1|e|] eqn:E; try discriminate. cbn [bind] in H.
    assert (Hw1 : wf files (cio_write (fio_finish f1) f1 s)).
    { destruct Hw as [H1 H2]. split; [exact H1|]. cbn. unfold append. rewrite app_length, <- H2, <- (firstn_skipn (c_idx s) (c_outs s)) at 1.
      rewrite firstn_skipn. rewrite firstn_length. pose proof (skipn_length (c_idx s) (c_outs s)) as Hl. destruct (skipn (c_idx s) (c_outs s)); cbn [length] in *; lia. }
    destruct (open_inv _ _ _ _ Hw1 E) as (Hw2 & file & f2 & En & _ & _ & Hi2 & _). apply (IH w s1 s' Hw2); [|exact H]. rewrite Hi2. apply nth_error_Some. congruence.
Qed.
Lemma at_end_panics files fuel w s f f' : wf files s -> c_current s = Some f -> c_idx s + 1 = length files -> raw_next f = Finished f' -> cupdate fuel w s = Panic.
Proof.
  intros Hw Hc Hi Hn. destruct fuel; cbn [cio_update_next]; rewrite (proj1 Hw), Hc; replace (c_idx s <? length files) with true by (symmetry; apply Nat.ltb_lt; lia);
    rewrite fupdate_raw, Hn; cbn [bind]; unfold cio_open; cbn [cio_write c_files]; rewrite (proj1 Hw);
    (replace (nth_error files (c_idx s + 1)) with (@None text) by (symmetry; apply nth_error_None; lia)); reflexivity.
Qed.

Lemma fuel_const files s : wf files s -> cio_fuel s = S (length files).
Proof. intros [H _]. unfold cio_fuel. rewrite H. reflexivity. Qed.
Lemma append_wf files t f s : wf files s -> wf files (cio_write t f s).
Proof.
  intros [H1 H2]. split; [exact H1|]. cbn. unfold append. rewrite app_length, firstn_length. pose proof (skipn_length (c_idx s) (c_outs s)) as Hl.
  destruct (skipn (c_idx s) (c_outs s)); cbn [length] in *; lia.
Qed.

(** every operation keeps the list of files *)
Lemma next_wf files : forall fuel s, wf files s ->
  match cnext fuel s with Finished s' | Item _ s' | Failed _ s' => wf files s' | Panicked => True end.
Proof.
  induction fuel as [|fuel IH]; intros s Hw; cbn [cio_next].
  - destruct (c_current s) as [f|]; [|destruct (length (c_files s) =? 0); auto].
    destruct (fnext f) as [g|y g|e g|]; [|exact Hw|exact Hw|exact I]. destruct (c_idx s + 1 =? length (c_files s)); [exact Hw|exact I].
  - assert (Ho : forall i, match (match copen i s with Ok s => cnext fuel s | Err e => Failed e s | Panic => Panicked end) with Finished s' | Item _ s' | Failed _ s' => wf files s' | Panicked => True end).
    { intros i. destruct (copen i s) as [s1|e|] eqn:E; auto. apply IH. exact (proj1 (open_inv _ _ _ _ Hw E)). }
    destruct (c_current s) as [f|]; [|destruct (length (c_files s) =? 0); [exact Hw|apply Ho]].
    destruct (fnext f) as [g|y g|e g|]; [|exact Hw|exact Hw|exact I]. destruct (c_idx s + 1 =? length (c_files s)); [exact Hw|]. apply Ho.
Qed.
Lemma update_file_wf files : forall ws s r, wf files s -> cio_update_file double show checks mw names ws s = Ok r -> wf files (snd r).
Proof.
  induction ws as [|w ws IH]; intros s r Hw H; cbn [cio_update_file] in H.
  - injection H as <-. exact Hw.
  - destruct (c_current s) as [f|]; [|discriminate]. destruct (fupdate w f) as [[[t|] g]|e|]; try discriminate; cbn [bind] in H.
    + eapply IH; [|exact H]. apply append_wf. exact Hw.
    + injection H as <-. apply append_wf. exact Hw.
Qed.
Lemma update_files_wf files : forall n idx ws s r, wf files s -> cio_update_files double show xml_info checks mw names scaling idx n ws s = Ok r -> wf files (snd r).
Proof.
  induction n as [|n IH]; intros idx ws s r Hw H; cbn [cio_update_files] in H.
  - injection H as <-. exact Hw.
  - destruct (copen idx s) as [s1|e|] eqn:E; try discriminate. cbn [bind] in H. apply open_inv with (files := files) in E; [|exact Hw].
    destruct (cio_update_file double show checks mw names ws s1) as [[ws2 s2]|e|] eqn:E2; try discriminate. cbn [bind] in H.
    apply (update_file_wf files) in E2; [|exact (proj1 E)]. cbn [snd] in E2. destruct (c_current s2) as [f|]; [|discriminate]. eapply IH; [|exact H]. apply append_wf. exact E2.
Qed.
Lemma update_next_wf files : forall fuel w s r, wf files s -> cupdate fuel w s = Ok r -> wf files (snd r).
Proof.
  induction fuel as [|fuel IH]; intros w s r Hw H; cbn [cio_update_next] in H;
    (destruct (c_idx s <? length (c_files s)); [|injection H as <-; exact Hw]); (destruct (c_current s) as [f|]; [|discriminate]);
    (destruct (fupdate w f) as [[[t|] g]|e|]; try discriminate); cbn [bind] in H; try (injection H as <-; apply append_wf; exact Hw).
  - destruct (copen _ _); discriminate.
  - destruct (copen (c_idx s + 1) (cio_write (fio_finish g) g s)) as [s1|e|] eqn:E; try discriminate. cbn [bind] in H.
    eapply IH; [|exact H]. eapply open_inv; [|exact E]. apply append_wf. exact Hw.
Qed.
Lemma init_loop_wf files : forall n idx s s', wf files s -> cio_init_loop xml_info checks scaling idx n s = Ok s' -> wf files s'.
Proof.
  induction n as [|n IH]; intros idx s s' Hw H; cbn [cio_init_loop] in H.
  - injection H as <-. exact Hw.
  - destruct (copen idx s) as [s1|e|] eqn:E; try discriminate. cbn [bind] in H. destruct (open_inv _ _ _ _ Hw E) as [[Hf Ho] _].
    destruct (c_current s1); [|discriminate]. eapply IH; [|exact H]. split; assumption.
Qed.
Lemma new_wf files s : cio_new xml_info checks scaling files = Ok s -> wf files s.
Proof.
  unfold cio_new, cio_init. cbn [c_files]. assert (Hw : wf files (mkCIO files None 0 0 (0%N, Some 0%N) (repeat [] (length files)))) by (split; [reflexivity|apply repeat_length]).
  destruct (length files =? 0).
  - intros H. injection H as <-. exact Hw.
  - destruct (cio_init_loop xml_info checks scaling 0 (length files) _) as [s1|e|] eqn:E; try discriminate. cbn [bind]. intros H.
    apply init_loop_wf with (files := files) in E; [|exact Hw]. exact (proj1 (open_inv _ _ _ _ E H)).
Qed.
Lemma history_wf files s : io_history double show xml_info checks mw names scaling files s -> wf files s.
Proof.
  induction 1 as [s H|s _ IH|s x s' _ IH H|s x s' _ IH H|s s' _ IH H|s ws n s' _ IH H|s w b s' _ IH H].
  - apply new_wf. exact H.
  - destruct IH; split; assumption.
  - pose proof (next_wf files (cio_fuel s) s IH) as Hw. rewrite H in Hw. exact Hw.
  - pose proof (next_wf files (cio_fuel s) s IH) as Hw. rewrite H in Hw. exact Hw.
  - pose proof (next_wf files (cio_fuel s) s IH) as Hw. rewrite H in Hw. exact Hw.
  - unfold cio_update_all in H. destruct (cio_update_files double show xml_info checks mw names scaling 0 (length (c_files s)) ws (cio_rewind s)) as [[ws' s2]|e|] eqn:E; try discriminate.
    cbn [bind] in H. injection H as <- <-. apply (update_files_wf files) in E; [exact E|]. destruct IH; split; assumption.
  - apply (update_next_wf files) in H; assumption.
Qed.

(** weights one by one *)
Lemma finish_cases (f : fio N) : fio_finish f = [] \/ fio_finish f = lhef_footer.
Proof. destruct f; cbn; auto. Qed.
Lemma upto_done out (f : fio N) : up_to_footer out (out ++ fio_finish f).
Proof. unfold up_to_footer. destruct (finish_cases f) as [-> | ->]; [left; rewrite app_nil_r; reflexivity|right; reflexivity]. Qed.

Lemma updates_all files F : length files <= F ->
  forall rest ws fuel s f l f' ts ls rs a o, wf files s -> c_current s = Some f -> delivers raw_next f l f' ->
  rest = skipn (S (c_idx s)) files -> c_idx s < length files -> length rest <= fuel -> length a = c_idx s ->
  c_outs s = a ++ o :: map (fun file => match build file with Ok g => fio_header g | _ => [] end) rest ->
  Forall2 (file_records xml_info checks scaling) rest ls ->
  length ws <= length l + list_sum (map (@length text) ls) ->
  update_list (upd f) (firstn (length l) ws) l = Ok ts ->
  sequence (map (fun x => file_rewrite double show xml_info checks mw names scaling (fst x) (snd x)) (combine rest (deal (map (@length text) ls) (skipn (length l) ws)))) = Ok rs ->
  exists s', (match ws with [] => s' = s | w :: ws => exists s1, cupdate fuel w s = Ok (true, s1) /\ updates (cupdate F) s1 ws s' end) /\
    exists outs, c_outs s' = a ++ outs /\ Forall2 up_to_footer outs ((o ++ concat ts ++ fio_finish f) :: map fst rs).
Proof.
  intros HF. induction rest as [rest Hrest] using (induction_ltof1 _ (@length text)). intros ws. revert rest Hrest.
  induction ws as [|w ws IHws]; intros rest Hrest fuel s f l f' ts ls rs a o Hw Hc Hd Hre Hidx Hfuel Ha Ho Hls Hlen Hts Hrs.
  - (* no weights left *)
    exists s. split; [reflexivity|]. eexists. split; [exact Ho|].
    assert (ts = []) as ->. { rewrite firstn_nil in Hts. destruct l; cbn in Hts; congruence. }
    cbn [concat app]. constructor; [apply upto_done|]. rewrite skipn_nil in Hrs. clear -Hrs Hls. revert rs Hrs. induction Hls as [|file l rest ls Hl Hls IH]; intros rs Hrs.
    + cbn in Hrs. injection Hrs as <-. constructor.
    + cbn [map deal combine sequence fst snd] in Hrs. destruct (records_raw _ _ Hl) as (g & g' & Hb & Hg). rewrite firstn_nil, skipn_nil in Hrs.
      rewrite (file_rewrite_list file l g g' [] Hl Hb Hg) in Hrs by (cbn; lia). destruct l as [|x l]; cbn [update_list bind] in Hrs.
      * destruct (sequence _) as [rs'|e|]; try discriminate. cbn [bind] in Hrs. injection Hrs as <-. cbn [map fst concat app]. rewrite Hb. constructor; [apply upto_done|]. apply IH. reflexivity.
      * destruct (sequence _) as [rs'|e|]; try discriminate. cbn [bind] in Hrs. injection Hrs as <-. cbn [map fst concat app]. rewrite Hb. constructor; [apply upto_done|]. apply IH. reflexivity.
  - destruct Hd as [f f1 H|f x f1 l f' H Hd].
    + (* the current file is finished *)
      cbn [length firstn skipn update_list] in Hts, Hlen, Hrs. injection Hts as <-. cbn [concat app].
      destruct Hls as [|file l rest ls Hl Hls]; [cbn in Hlen; lia|].
      assert (En : nth_error files (S (c_idx s)) = Some file) by (eapply skipn_head; symmetry; exact Hre).
      destruct (records_raw _ _ Hl) as (g & g' & Hb & Hg).
      cbn [map deal combine sequence fst snd] in Hrs. rewrite (file_rewrite_list file l g g' _ Hl Hb Hg) in Hrs by (rewrite firstn_length; lia).
      destruct (update_list (upd g) (firstn (length l) (w :: ws)) l) as [ts|e|] eqn:Ets; try discriminate. cbn [bind] in Hrs.
      destruct (sequence _) as [rs'|e|] eqn:Eseq; try discriminate. cbn [bind] in Hrs. injection Hrs as <-.
      assert (Hk : same_kind f f1) by (apply (raw_next_kind f [] f1); auto).
      set (s1 := cio_write (fio_finish f1) f1 s).
      assert (Hw1 : wf files s1) by (apply append_wf; exact Hw).
      assert (Ho1 : c_outs s1 = (a ++ [o ++ fio_finish f]) ++ fio_header g :: map (fun file => match build file with Ok g => fio_header g | _ => [] end) rest).
      { unfold s1. cbn [cio_write c_outs]. rewrite Ho. rewrite (append_at _ _ _ _ _ Ha). cbn [map]. rewrite Hb, <- (same_kind_finish _ _ Hk), <- app_assoc. reflexivity. }
      destruct (open_ok files s1 (S (c_idx s)) file g Hw1 En Hb) as (outs & Hset & Hlo & Hop). apply set_nth_at in Hset.
      assert (Hla : length (a ++ [o ++ fio_finish f]) = S (c_idx s)) by (rewrite app_length, Ha; cbn; lia).
      assert (Hset2 : outs = (a ++ [o ++ fio_finish f]) ++ fio_header g :: map (fun file => match build file with Ok g => fio_header g | _ => [] end) rest).
      { rewrite Hset, Ho1. rewrite <- Hla at 1. rewrite firstn_app, firstn_all, Nat.sub_diag. cbn [firstn]. rewrite app_nil_r. f_equal. f_equal.
        rewrite <- Hla. rewrite skipn_app. rewrite skipn_all2 by lia. replace (S (length (a ++ [o ++ fio_finish f])) - length (a ++ [o ++ fio_finish f])) with 1 by lia. reflexivity. }
      destruct fuel as [|fuel]; [cbn in Hfuel; lia|].
      assert (Hstep : cupdate (S fuel) w s = cupdate fuel w (mkCIO files (Some g) (S (c_idx s)) (c_nread s1) (c_hint s1) outs)).
      { cbn [cio_update_next]. rewrite (proj1 Hw), Hc. replace (c_idx s <? length files) with true by (symmetry; apply Nat.ltb_lt; exact Hidx).
        rewrite fupdate_raw, H. cbn [bind]. fold s1. replace (c_idx s + 1) with (S (c_idx s)) by lia. rewrite Hop. reflexivity. }
      assert (Hlt : S (c_idx s) < length files) by (apply nth_error_Some; congruence).
      destruct (Hrest rest ltac:(unfold ltof; cbn; lia) (w :: ws) fuel (mkCIO files (Some g) (S (c_idx s)) (c_nread s1) (c_hint s1) outs) g l g' ts ls rs' (a ++ [o ++ fio_finish f]) (fio_header g)) as (s' & (s2 & Hs2 & Hs') & outs' & Ho' & Hf').
      { split; [reflexivity|exact Hlo]. } { reflexivity. } { exact Hg. }
      { cbn [c_idx]. rewrite (skipn_nth_cons _ _ _ _ En) in Hre. congruence. } { exact Hlt. } { cbn in Hfuel. lia. } { exact Hla. } { exact Hset2. } { exact Hls. } { cbn in Hlen |- *. unfold list_sum. lia. } { exact Ets. } { exact Eseq. }
      exists s'. split; [exists s2; split; [rewrite Hstep; exact Hs2|exact Hs']|].
      exists ((o ++ fio_finish f) :: outs'). split; [rewrite Ho', <- app_assoc; reflexivity|]. constructor; [left; reflexivity|]. exact Hf'.
    + (* a record of the current file *)
      cbn [length firstn skipn update_list] in Hts, Hlen, Hrs. assert (Hk : same_kind f f1) by (apply (raw_next_kind f x f1); auto).
      destruct (upd f w x) as [t|e|] eqn:Eu; try discriminate. cbn [bind] in Hts.
      destruct (update_list (upd f) (firstn (length l) ws) l) as [ts'|e|] eqn:Ets; try discriminate. cbn [bind] in Hts. injection Hts as <-.
      assert (Hstep : cupdate fuel w s = Ok (true, cio_write t f1 s)).
      { destruct fuel; cbn [cio_update_next]; rewrite (proj1 Hw), Hc; replace (c_idx s <? length files) with true by (symmetry; apply Nat.ltb_lt; exact Hidx);
          rewrite fupdate_raw, H, Eu; reflexivity. }
      destruct (IHws rest Hrest F (cio_write t f1 s) f1 l f' ts' ls rs a (o ++ t)) as (s' & Hs' & outs & Ho' & Hf').
      { apply append_wf. exact Hw. } { reflexivity. } { exact Hd. } { exact Hre. } { exact Hidx. } { rewrite Hre, skipn_length. lia. } { exact Ha. }
      { cbn [cio_write c_outs]. rewrite Ho, (append_at _ _ _ _ _ Ha). reflexivity. } { exact Hls. } { lia. } { rewrite <- (same_kind_upd _ _ Hk). exact Ets. } { exact Hrs. }
      exists s'. split.
      * exists (cio_write t f1 s). split; [exact Hstep|]. destruct ws as [|w2 ws]; [subst s'; constructor|]. destruct Hs' as (s2 & H1 & H2). econstructor; eassumption.
      * exists outs. split; [exact Ho'|]. rewrite <- app_assoc, <- (same_kind_finish _ _ Hk) in Hf'. cbn [concat]. rewrite <- app_assoc. exact Hf'.
Qed.

(** after [new] the headers of all files are written *)
Lemma init_headers files : forall n i s s' done, wf files s -> i + n = length files ->
  (forall j file, nth_error files j = Some file -> exists f, build file = Ok f) ->
  length done = i -> (exists b, c_outs s = done ++ b) -> cio_init_loop xml_info checks scaling i n s = Ok s' ->
  c_outs s' = done ++ map (fun file => match build file with Ok g => fio_header g | _ => [] end) (skipn i files).
Proof.
  induction n as [|n IH]; intros i s s' done Hw Hin Hb Hd [b Ho] H; cbn [cio_init_loop] in H.
  - injection H as <-. rewrite skipn_all2 by lia. cbn [map]. assert (b = []) as ->; [|exact Ho].
    destruct Hw as [_ Hl]. rewrite Ho, app_length in Hl. destruct b; [reflexivity|cbn in Hl; lia].
  - destruct (nth_error files i) as [file|] eqn:E; [|apply nth_error_None in E; lia]. destruct (Hb i file E) as [f Hf].
    destruct (open_ok files s i file f Hw E Hf) as (outs & Hset & Hlo & Hop). rewrite Hop in H. cbn [bind c_current] in H.
    apply set_nth_at in Hset. cbn [c_files c_idx c_nread c_hint c_outs] in H.
    eapply (IH (S i) _ _ (done ++ [fio_header f])) in H.
    + rewrite H, (skipn_nth_cons _ _ _ _ E). cbn [map]. rewrite Hf, <- app_assoc. reflexivity.
    + split; [reflexivity|exact Hlo].
    + lia.
    + exact Hb.
    + rewrite app_length, Hd. cbn. lia.
    + exists (skipn (S i) (c_outs s)). cbn [c_outs]. rewrite Hset, Ho, firstn_app, Hd, Nat.sub_diag. cbn [firstn]. rewrite app_nil_r, firstn_all2 by lia. rewrite <- app_assoc. reflexivity.
Qed.
Lemma new_headers files s : (forall j file, nth_error files j = Some file -> exists f, build file = Ok f) -> files <> [] ->
  cio_new xml_info checks scaling files = Ok s ->
  exists file rest f, files = file :: rest /\ build file = Ok f /\ wf files s /\ c_current s = Some f /\ c_idx s = 0 /\
    c_outs s = [] ++ fio_header f :: map (fun file => match build file with Ok g => fio_header g | _ => [] end) rest.
Proof.
  intros Hb Hne H. pose proof (new_wf files s H) as Hws. unfold cio_new, cio_init in H. cbn [c_files] in H. destruct files as [|file rest]; [congruence|]. set (files := file :: rest) in *.
  replace (length files =? 0) with false in H by reflexivity.
  set (s0 := mkCIO files None 0 0 (0%N, Some 0%N) (repeat [] (length files))) in *.
  assert (Hw : wf files s0) by (split; [reflexivity|apply repeat_length]).
  destruct (cio_init_loop xml_info checks scaling 0 (length files) s0) as [s1|e|] eqn:E; try discriminate. cbn [bind] in H.
  pose proof (init_headers files (length files) 0 s0 s1 [] Hw eq_refl Hb eq_refl (ex_intro _ _ eq_refl) E) as Ho.
  apply init_loop_wf with (files := files) in E; [|exact Hw]. destruct (Hb 0 file eq_refl) as [f Hf]. destruct (open_ok files s1 0 file f E eq_refl Hf) as (outs & Hset & _ & Hop).
  rewrite Hop in H. injection H as <-. exists file, rest, f. split; [reflexivity|]. split; [exact Hf|]. split; [exact Hws|]. split; [reflexivity|]. split; [reflexivity|].
  apply set_nth_at in Hset. cbn [c_outs]. rewrite Hset, Ho. reflexivity.
Qed.

(** the index of the current file is in range *)
Definition in_range (files : list text) (s : cio N) : Prop := wf files s /\ c_idx s < length files.
Lemma open_range files s i s' : wf files s -> copen i s = Ok s' -> in_range files s'.
Proof.
  intros Hw H. destruct (open_inv _ _ _ _ Hw H) as (Hw' & file & f & En & _ & _ & Hi & _). split; [exact Hw'|]. rewrite Hi. apply nth_error_Some. congruence.
Qed.
Lemma next_range files : forall fuel s, in_range files s ->
  match cnext fuel s with Finished s' | Item _ s' | Failed _ s' => in_range files s' | Panicked => True end.
Proof.
  induction fuel as [|fuel IH]; intros s Hw; cbn [cio_next].
  - destruct (c_current s) as [f|]; [|destruct (length (c_files s) =? 0); auto].
    destruct (fnext f) as [g|y g|e g|]; [|exact Hw|exact Hw|exact I]. destruct (c_idx s + 1 =? length (c_files s)); [exact Hw|exact I].
  - assert (Ho : forall i, match (match copen i s with Ok s => cnext fuel s | Err e => Failed e s | Panic => Panicked end) with Finished s' | Item _ s' | Failed _ s' => in_range files s' | Panicked => True end).
    { intros i. destruct (copen i s) as [s1|e|] eqn:E; auto. apply IH. exact (open_range _ _ _ _ (proj1 Hw) E). }
    destruct (c_current s) as [f|]; [|destruct (length (c_files s) =? 0); [exact Hw|apply Ho]].
    destruct (fnext f) as [g|y g|e g|]; [|exact Hw|exact Hw|exact I]. destruct (c_idx s + 1 =? length (c_files s)); [exact Hw|]. apply Ho.
Qed.
Lemma update_file_range files : forall ws s r, in_range files s -> cio_update_file double show checks mw names ws s = Ok r -> in_range files (snd r).
Proof.
  induction ws as [|w ws IH]; intros s r Hw H; cbn [cio_update_file] in H.
  - injection H as <-. exact Hw.
  - destruct (c_current s) as [f|]; [|discriminate]. destruct (fupdate w f) as [[[t|] g]|e|]; try discriminate; cbn [bind] in H.
    + eapply IH; [|exact H]. split; [apply append_wf; exact (proj1 Hw)|exact (proj2 Hw)].
    + injection H as <-. split; [apply append_wf; exact (proj1 Hw)|exact (proj2 Hw)].
Qed.
Lemma update_files_range files : forall n idx ws s r, in_range files s -> cio_update_files double show xml_info checks mw names scaling idx n ws s = Ok r -> in_range files (snd r).
Proof.
  induction n as [|n IH]; intros idx ws s r Hw H; cbn [cio_update_files] in H.
  - injection H as <-. exact Hw.
  - destruct (copen idx s) as [s1|e|] eqn:E; try discriminate. cbn [bind] in H. apply open_range with (files := files) in E; [|exact (proj1 Hw)].
    destruct (cio_update_file double show checks mw names ws s1) as [[ws2 s2]|e|] eqn:E2; try discriminate. cbn [bind] in H.
    apply (update_file_range files) in E2; [|exact E]. cbn [snd] in E2. destruct (c_current s2) as [f|]; [|discriminate]. eapply IH; [|exact H].
    split; [apply append_wf; exact (proj1 E2)|exact (proj2 E2)].
Qed.
Lemma update_next_range files : forall fuel w s r, in_range files s -> cupdate fuel w s = Ok r -> in_range files (snd r).
Proof.
  assert (Happ : forall t f s, in_range files s -> in_range files (cio_write t f s)) by (intros t f s [H1 H2]; split; [apply append_wf; exact H1|exact H2]).
  induction fuel as [|fuel IH]; intros w s r Hw H; cbn [cio_update_next] in H;
    (destruct (c_idx s <? length (c_files s)); [|injection H as <-; exact Hw]); (destruct (c_current s) as [f|]; [|discriminate]);
    (destruct (fupdate w f) as [[[t|] g]|e|]; try discriminate); cbn [bind] in H; try (injection H as <-; apply Happ; exact Hw).
  - destruct (copen _ _); discriminate.
  - destruct (copen (c_idx s + 1) (cio_write (fio_finish g) g s)) as [s1|e|] eqn:E; try discriminate. cbn [bind] in H.
    eapply IH; [|exact H]. eapply open_range; [|exact E]. apply append_wf. exact (proj1 Hw).
Qed.
Lemma history_idx files s : files <> [] -> io_history double show xml_info checks mw names scaling files s -> c_idx s < length files.
Proof.
  intros Hne H. enough (in_range files s) by (exact (proj2 H0)).
  induction H as [s H|s _ IH|s x s' _ IH H|s x s' _ IH H|s s' _ IH H|s ws n s' _ IH H|s w b s' _ IH H].
  - split; [apply new_wf; exact H|]. unfold cio_new, cio_init in H. cbn [c_files] in H. destruct files as [|file rest]; [congruence|]. set (files := file :: rest) in *.
    replace (length files =? 0) with false in H by reflexivity.
    set (s0 := mkCIO files None 0 0 (0%N, Some 0%N) (repeat [] (length files))) in *.
    assert (Hw : wf files s0) by (split; [reflexivity|apply repeat_length]).
    destruct (cio_init_loop xml_info checks scaling 0 (length files) s0) as [s1|e|] eqn:E; try discriminate. cbn [bind] in H.
    apply init_loop_wf with (files := files) in E; [|exact Hw]. exact (proj2 (open_range _ _ _ _ E H)).
  - exact IH.
  - pose proof (next_range files (cio_fuel s) s IH) as Hw. rewrite H in Hw. exact Hw.
  - pose proof (next_range files (cio_fuel s) s IH) as Hw. rewrite H in Hw. exact Hw.
  - pose proof (next_range files (cio_fuel s) s IH) as Hw. rewrite H in Hw. exact Hw.
  - unfold cio_update_all in H. destruct (cio_update_files double show xml_info checks mw names scaling 0 (length (c_files s)) ws (cio_rewind s)) as [[ws' s2]|e|] eqn:E; try discriminate.
    cbn [bind] in H. injection H as <- <-. apply (update_files_range files) in E; [exact E|exact IH].
  - apply (update_next_range files) in H; assumption.
Qed.
End Proofs.
