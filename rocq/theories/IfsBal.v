(** What the assembled equations say. *)
From Coq Require Import Reals Lra.
From stdpp Require Import sorting.
From Verif Require Import Base LoopModel LoopProof CsrSpec CsrModel CsrProof CsrProps GridModel GridSpec TableModel TofSpec TofProof
  AccModel AccProof HalfProof WellsModel IfsModel IfsSpec IfsProof IfsOps.
Local Open Scope R_scope.
Unset Default Proof Using.

(** Row [i] of the matrix times [X], minus the right hand side. *)
Definition res1 (X : nat → R) (i : nat) (o : op) : R :=
  match o with
  | OA i' j v => if decide (i' = i) then v * X j else 0
  | OB k v => if decide (k = i) then - v else 0
  end.
Lemma res_sum X i m ops : (∀ i' j v, OA i' j v ∈ ops → (j < m)%nat) →
  rsum (λ j, oa ops i j * X j) (seq 0 m) - ob ops i = rsum (res1 X i) ops.
Proof.
  induction ops as [|o ops IH]; intros H.
  - cbn. rewrite rsum_zero; [unfold ob; simpl; lra|]. intros j _. unfold oa. simpl. lra.
  - cbn [rsum]. rewrite <- IH by (intros; eapply H; by right).
    rewrite (rsum_ext (λ j, oa (o :: ops) i j * X j) (λ j, oa1 i j o * X j + oa ops i j * X j)) by (intros j _; unfold oa; cbn [rsum]; lra).
    rewrite rsum_plus. change (ob (o :: ops) i) with (ob1 i o + ob ops i).
    enough (rsum (λ j, oa1 i j o * X j) (seq 0 m) - ob1 i o = res1 X i o) by lra.
    destruct o as [i' j v|k v]; cbn [oa1 ob1 res1].
    + destruct (decide (i' = i)) as [->|Hn].
      * rewrite (rsum_ext _ (λ j', if decide (j' = j) then v * X j' else 0)).
        -- rewrite (rsum_single (λ j', v * X j') j); [lra|apply NoDup_seq|]. apply elem_of_seq. specialize (H i j v ltac:(left)). lia.
        -- intros j' _. destruct (decide (j' = j)) as [->|Hj]; [by rewrite decide_True|]. rewrite decide_False by (intros [_ ?]; congruence). lra.
      * rewrite rsum_zero; [lra|]. intros j' _. rewrite decide_False by (intros [? _]; congruence). lra.
    + rewrite rsum_zero by (intros; lra). destruct (decide (k = i)); lra.
Qed.
Definition tot1 (X : nat → R) (o : op) : R := match o with OA _ j v => v * X j | OB _ v => - v end.
Lemma res_total X m ops : (∀ o, o ∈ ops → match o with OA i _ _ => (i < m)%nat | OB k _ => (k < m)%nat end) →
  rsum (λ i, rsum (res1 X i) ops) (seq 0 m) = rsum (tot1 X) ops.
Proof.
  intros H. rewrite rsum_swap. apply rsum_ext. intros o Ho. specialize (H o Ho). destruct o as [i j v|k v]; cbn [res1 tot1].
  - rewrite (rsum_ext _ (λ i', if decide (i' = i) then v * X j else 0)); [|intros i' _; by rewrite (decide_ext (i = i') (i' = i)) by lia].
    apply (rsum_single (λ _, v * X j)); [apply NoDup_seq|apply elem_of_seq; lia].
  - rewrite (rsum_ext _ (λ i', if decide (i' = k) then - v else 0)); [|intros i' _; by rewrite (decide_ext (k = i') (i' = k)) by lia].
    apply (rsum_single (λ _, - v)); [apply NoDup_seq|apply elem_of_seq; lia].
Qed.
Lemma rsum_imap {A B} (h : B → R) (f : nat → A → list B) l d :
  rsum h (concat (imap f l)) = rsum (λ w, rsum h (f w (default d (l !! w)))) (seq 0 (length l)).
Proof.
  revert f. induction l as [|x l IH]; intros f; [done|]. rewrite imap_cons. cbn [concat length seq rsum]. rewrite rsum_app. f_equal.
  rewrite IH. rewrite <- fmap_S_seq. change (S <$> seq 0 (length l)) with (map S (seq 0 (length l))). rewrite rsum_map. done.
Qed.

(** Sums over rows. *)
Lemma halves_concat rows c i :
  halves c i rows = concat (imap (λ w _, match rows !! w, starts i rows !! w with Some r, Some b => map (pair (c + w)%nat) (seq b (length r)) | _, _ => [] end) rows).
Proof.
  revert c i. induction rows as [|r rows IH]; intros c i; [done|]. cbn [halves]. rewrite imap_cons. cbn [concat]. f_equal.
  - cbn. by rewrite Nat.add_0_r.
  - rewrite IH. f_equal. apply imap_ext. intros w r' Hr'. unfold compose. change ((r :: rows) !! S w) with (rows !! w). change (starts i (r :: rows) !! S w) with (starts (i + length r) rows !! w). rewrite Hr', Nat.add_succ_r. done.
Qed.
Lemma rsum_halves rows (h : nat * nat → R) :
  rsum h (halves 0 0 rows) = rsum (λ w, match rows !! w, starts 0 rows !! w with Some r, Some b => rsum (λ i, h (w, i)) (seq b (length r)) | _, _ => 0 end) (seq 0 (length rows)).
Proof.
  rewrite halves_concat. rewrite (rsum_imap _ _ _ []). apply rsum_ext. intros w Hw. cbn [Nat.add].
  destruct (rows !! w); [|done]. destruct (starts 0 rows !! w); [|done]. by rewrite rsum_map.
Qed.
Lemma rsum_halves_snd rows (h : nat → R) : rsum (λ ci, h ci.2) (halves 0 0 rows) = rsum h (seq 0 (length (concat rows))).
Proof. rewrite <- (halves_snd rows 0 0). change ((halves 0 0 rows).*2) with (map snd (halves 0 0 rows)). by rewrite rsum_map. Qed.

Section bal.
Context {name_t : Type}.
Context (g : ugrid) (cf : list (list nat)) (Hg : grid_ok g cf).
Context (wrows : list (list nat)).
Context (trans : list R).
Context (G : list R) (Hext : ∀ f a b, face_between g f a b → (a < 0)%Z ∨ (b < 0)%Z → G !! f = Some 0).
Notation nc := (u_nc g).
Notation T f := (default 0 (trans !! f)).
Notation fc1 f := (default (-1)%Z (u_facecells g !! (2 * f)%nat)).
Notation face i := (default 0%nat (u_cellfaces g !! i)).

Lemma rsum_cell c r (h : nat → R) : cf !! c = Some r →
  rsum (λ ci, if decide (ci.1 = c) then h (face ci.2) else 0) (halves 0 0 cf) = rsum h r.
Proof.
  intros Hr. rewrite rsum_halves. pose proof (lookup_lt_Some _ _ _ Hr) as Hlt.
  rewrite (rsum_ext _ (λ w, if decide (w = c) then rsum h r else 0)).
  - apply (rsum_single (λ _, rsum h r)); [apply NoDup_seq|apply elem_of_seq; lia].
  - intros w Hw%elem_of_seq. cbn [fst snd]. destruct (decide (w = c)) as [->|Hn].
    + destruct (starts_rows 0 [] cf c r eq_refl Hr) as (b & Hb & He & Hs). rewrite Hr, Hb.
      destruct (holds_rows_unique _ _ _ (ok_rows _ _ Hg)) as [E1 E2].
      destruct (proj2 (proj2 (proj2 (ok_rows _ _ Hg))) c r Hr) as (b' & e & Eb & Ee & Hle & Hsl).
      rewrite E1 in Eb, Ee. rewrite Hb in Eb. injection Eb as <-. rewrite He in Ee. injection Ee as <-.
      replace (b + length r - b)%nat with (length r) in Hsl by lia.
      assert (Hl : ∀ t, (t < length r)%nat → u_cellfaces g !! (b + t)%nat = r !! t) by (intros t ?; by apply (slice_lookup _ _ _ _ _ Hsl)).
      clear -Hl. revert b Hl. induction r as [|x r IH]; intros b Hl; [done|]. cbn [length seq rsum].
      pose proof (Hl 0%nat ltac:(simpl; lia)) as H0. rewrite Nat.add_0_r in H0. rewrite H0. cbn. f_equal.
      apply IH. intros t ?. rewrite Nat.add_succ_comm. apply (Hl (S t)). simpl. lia.
    + destruct (cf !! w); [|done]. destruct (starts 0 cf !! w); [|done]. apply rsum_zero. done.
Qed.

(** Flow out of cell [c] over face [f] as far as the loop over faces knows. *)
Definition fout (X : nat → R) (c f : nat) : R :=
  T f * (sgn (fc1 f) c * default 0 (G !! f)) +
  (if decide (0 <= neighbour g c f)%Z then T f * (X c - X (Z.to_nat (neighbour g c f))) else 0).
Notation fops := (concat (map (face_ops g trans G) (halves 0 0 cf))).
Lemma res_face_ops X c r : cf !! c = Some r → rsum (res1 X c) fops = rsum (fout X c) r.
Proof.
  intros Hr. rewrite rsum_concat, rsum_map. rewrite <- (rsum_cell c r) by done. apply rsum_ext. intros [c' i] _.
  unfold face_ops, fout. cbn [fst snd rsum res1]. destruct (decide (c' = c)) as [->|Hn].
  - destruct (decide (0 <= _)%Z); cbn [rsum res1]; [rewrite !decide_True by done|]; lra.
  - destruct (decide (0 <= _)%Z); cbn [rsum res1]; [rewrite !decide_False by done|]; lra.
Qed.
Lemma res_face_ops_well X k : (nc <= k)%nat → rsum (res1 X k) fops = 0.
Proof.
  intros Hk. rewrite rsum_concat, rsum_map. apply rsum_zero. intros [c i] Hi. destruct (half_lt g cf Hg c i Hi) as [Hc _].
  unfold face_ops. cbn [fst snd rsum res1]. rewrite decide_False by lia.
  destruct (decide (0 <= _)%Z); cbn [rsum res1]; [rewrite !decide_False by lia|]; lra.
Qed.
(** Pairing the two sides of every face. *)
Lemma rsum_by_face (h : nat * nat → R) :
  rsum h (halves 0 0 cf) = rsum (λ f, rsum (λ ci, if decide (u_cellfaces g !! ci.2 = Some f) then h ci else 0) (halves 0 0 cf)) (seq 0 (u_nf g)).
Proof.
  rewrite rsum_swap. apply rsum_ext. intros [c i] Hi. cbn [snd].
  destruct (half_neighbour g cf Hg c i Hi) as (f & a & b & Hf & Hlt & _).
  rewrite (rsum_ext _ (λ f', if decide (f' = f) then h (c, i) else 0)).
  - symmetry. apply (rsum_single (λ _, h (c, i))); [apply NoDup_seq|apply elem_of_seq; lia].
  - intros f' _. rewrite Hf. destruct (decide (f' = f)) as [->|Hn]; [by rewrite decide_True|]. by rewrite decide_False by congruence.
Qed.
Lemma rsum_sides_zero (h : nat → nat → R) :
  (∀ f a b, face_between g f (Z.of_nat a) (Z.of_nat b) → a ≠ b → h a f + h b f = 0) →
  (∀ f c, face_between g f (Z.of_nat c) (-1) ∨ face_between g f (-1) (Z.of_nat c) → h c f = 0) →
  rsum (λ ci, h ci.1 (face ci.2)) (halves 0 0 cf) = 0.
Proof.
  intros H2 H1. rewrite rsum_by_face. apply rsum_zero. intros f Hf%elem_of_seq.
  destruct (face_data g cf Hg f ltac:(lia)) as (a & b & Hab). pose proof (ok_range _ _ Hg _ _ _ Hab) as (Ra & Rb & Rab).
  rewrite (rsum_ext _ (λ ci, if decide (u_cellfaces g !! ci.2 = Some f) then h ci.1 f else 0)).
  2: { intros ci _. destruct (decide _) as [E|]; [|done]. by rewrite E. }
  destruct (decide (a = -1)%Z) as [->|Ha]; [destruct (decide (b = -1)%Z) as [->|Hb]|destruct (decide (b = -1)%Z) as [->|Hb]].
  - apply rsum_zero. intros [c i] Hi. cbn [snd]. destruct (decide _) as [E|]; [|done].
    assert (half g c f i) as Hh by (by apply (half_iff g cf Hg)).
    apply (half_cells g cf Hg) in Hh as (a & b & [E1 E2] & Hc). destruct Hab as [E3 E4]. rewrite E1 in E3. rewrite E2 in E4.
    injection E3 as ->. injection E4 as ->. lia.
  - rewrite <- (Z2Nat.id b) in Hab by lia. destruct (half_exists g cf Hg (Z.to_nat b) f _ _ ltac:(lia) Hab ltac:(by right)) as [i Hi].
    rewrite (rsum_face_one g cf Hg (λ ci, h ci.1 f) f _ _ _ i Hab ltac:(by right) Hi). cbn [fst]. apply H1. by right.
  - rewrite <- (Z2Nat.id a) in Hab by lia. destruct (half_exists g cf Hg (Z.to_nat a) f _ _ ltac:(lia) Hab ltac:(by left)) as [i Hi].
    rewrite (rsum_face_one g cf Hg (λ ci, h ci.1 f) f _ _ _ i Hab ltac:(by left) Hi). cbn [fst]. apply H1. by left.
  - rewrite <- (Z2Nat.id a), <- (Z2Nat.id b) in Hab by lia.
    destruct (half_exists g cf Hg (Z.to_nat a) f _ _ ltac:(lia) Hab ltac:(by left)) as [i Hi].
    destruct (half_exists g cf Hg (Z.to_nat b) f _ _ ltac:(lia) Hab ltac:(by right)) as [j Hj].
    rewrite (rsum_face_two g cf Hg (λ ci, h ci.1 f) f _ _ i j Hab Hi Hj). cbn [fst]. apply H2; [done|].
    intros E. apply Z2Nat.inj in E; lia.
Qed.
Lemma neighbour_fst c f b : face_between g f (Z.of_nat c) b → neighbour g c f = b ∧ sgn (fc1 f) c = 1.
Proof.
  intros [Ea Eb]. unfold neighbour, sgn. rewrite Ea, Eb. cbn [default from_option]. unfold Datatypes.id. by rewrite !decide_True.
Qed.
Lemma neighbour_snd c f a : face_between g f a (Z.of_nat c) → a ≠ Z.of_nat c → neighbour g c f = a ∧ sgn (fc1 f) c = -1.
Proof.
  intros [Ea Eb] Hn. unfold neighbour, sgn. rewrite Ea, Eb. cbn [default from_option]. unfold Datatypes.id. by rewrite !decide_False.
Qed.
Lemma tot_face_ops X : rsum (tot1 X) fops = 0.
Proof.
  rewrite rsum_concat, rsum_map.
  rewrite (rsum_ext _ (λ ci, (λ c f, fout X c f) ci.1 (face ci.2))).
  - apply rsum_sides_zero.
    + intros f a b Hf Hab. destruct (neighbour_fst _ _ _ Hf) as [N1 S1]. destruct (neighbour_snd _ _ _ Hf ltac:(lia)) as [N2 S2].
      unfold fout. rewrite N1, N2, S1, S2. rewrite !decide_True by lia. rewrite !Nat2Z.id. lra.
    + intros f c [Hf|Hf].
      * destruct (neighbour_fst _ _ _ Hf) as [N1 S1]. unfold fout. rewrite (Hext _ _ _ Hf) by (right; lia). rewrite N1.
        rewrite decide_False by lia. cbn [default from_option]. unfold Datatypes.id. lra.
      * destruct (neighbour_snd _ _ _ Hf ltac:(lia)) as [N1 S1]. unfold fout. rewrite (Hext _ _ _ Hf) by (left; lia). rewrite N1.
        rewrite decide_False by lia. cbn [default from_option]. unfold Datatypes.id. lra.
  - intros [c i] _. unfold face_ops, fout. cbn [fst snd rsum tot1]. destruct (decide (0 <= _)%Z); cbn [rsum tot1]; lra.
Qed.

(** ** Wells *)
Section wells.
Context (W : @wells R name_t) (ds : list demand) (Hw : wells_ok nc W wrows ds).
Context (mt wdp : list R) (Hmt : length mt = nc) (Hwdp : length wdp = length (concat wrows)).
Notation pc := (pc W).
Notation PT := (PT W mt).
Notation PD := (PD wdp).
Notation wrow := (well_row wrows).
Notation dem w := (default Shut (ds !! w)).
Notation wops := (all_ops g wrows W ds mt wdp (length ds)).

(** Flow into the cell of perforation [i] of well [w]. *)
Definition pflux (X : nat → R) (w i : nat) : R :=
  match dem w with
  | Pressure bhp => PT i * (bhp + PD i - X (pc i))
  | Rate _ => PT i * (X (nc + w)%nat + PD i - X (pc i))
  | _ => 0
  end.
Lemma wops_sum (h : op → R) : rsum h wops = rsum (λ w, rsum h (well_ops g wrows W mt wdp w (dem w))) (seq 0 (length wrows)).
Proof.
  unfold all_ops. rewrite take_ge by lia. rewrite (rsum_imap _ _ _ Shut). by rewrite (wk_len _ _ _ _ Hw).
Qed.
Lemma well_ops_sum (h : op → R) w d : rsum h (well_ops g wrows W mt wdp w d) =
  rsum (λ i, rsum h (perf_ops g W mt wdp d w i)) (wrow w) + match d with Rate q => h (OB (nc + w)%nat q) | _ => 0 end.
Proof.
  unfold well_ops. rewrite rsum_app, rsum_concat, rsum_map. f_equal. destruct d; cbn [rsum]; lra.
Qed.
Lemma wrow_pc w i : i ∈ wrow w → (pc i < nc)%nat ∧ (w < length wrows)%nat.
Proof.
  intros Hi%well_row_in. eapply perf_data in Hi as (r & c & wi & Hr & _ & Hlt & _ & Epc & _); [|done..]. rewrite Epc. apply lookup_lt_Some in Hr. done.
Qed.
Lemma rsum_wrows (h : nat → nat → R) : rsum (λ w, rsum (h w) (wrow w)) (seq 0 (length wrows)) = rsum (λ wi, h wi.1 wi.2) (halves 0 0 wrows).
Proof.
  rewrite rsum_halves. apply rsum_ext. intros w _. unfold well_row. destruct (wrows !! w); [|done]. destruct (starts 0 wrows !! w); done.
Qed.
Lemma res_wops_cell X c : (c < nc)%nat →
  rsum (res1 X c) wops = - rsum (λ wi, if decide (pc wi.2 = c) then pflux X wi.1 wi.2 else 0) (halves 0 0 wrows).
Proof.
  intros Hc. rewrite wops_sum.
  transitivity (- rsum (λ w, rsum (λ i, if decide (pc i = c) then pflux X w i else 0) (wrow w)) (seq 0 (length wrows)));
    [|f_equal; apply (rsum_wrows (λ w i, if decide (pc i = c) then pflux X w i else 0))].
  rewrite <- rsum_opp.
  apply rsum_ext. intros w Hwl%elem_of_seq. rewrite well_ops_sum.
  assert (match dem w with Rate q => res1 X c (OB (nc + w) q) | _ => 0 end = 0) as ->.
  { destruct (dem w); try done. cbn [res1]. by rewrite decide_False by lia. }
  rewrite Rplus_0_r, <- rsum_opp. apply rsum_ext. intros i Hi. unfold perf_ops, pflux.
  destruct (dem w); cbn [rsum res1]; rewrite ?(decide_False (P := (nc + w)%nat = c)) by lia; destruct (decide (pc i = c)) as [<-|]; lra.
Qed.
Lemma res_wops_well X w : (w < length wrows)%nat → rsum (res1 X (nc + w)) wops =
  match dem w with
  | Shut => X (nc + w)%nat * rsum PT (wrow w)
  | Pressure bhp => (X (nc + w)%nat - bhp) * rsum PT (wrow w)
  | Rate q => rsum (pflux X w) (wrow w) - q
  | Unsupported => 0
  end.
Proof.
  intros Hlt. rewrite wops_sum.
  rewrite (rsum_ext _ (λ w', if decide (w' = w) then rsum (res1 X (nc + w)) (well_ops g wrows W mt wdp w' (dem w')) else 0)).
  - rewrite (rsum_single (λ w', rsum (res1 X (nc + w)) (well_ops g wrows W mt wdp w' (dem w')))); [|apply NoDup_seq|apply elem_of_seq; lia].
    rewrite well_ops_sum. assert (Hpc : ∀ i, i ∈ wrow w → pc i ≠ (nc + w)%nat) by (intros i [Hi _]%wrow_pc; lia).
    unfold pflux. destruct (dem w) as [|bhp|q|]; cbn [res1].
    + rewrite <- rsum_scale, Rplus_0_r. apply rsum_ext. intros i Hi. unfold perf_ops. cbn [rsum res1]. rewrite decide_True by done. lra.
    + rewrite <- rsum_scale, Rplus_0_r. apply rsum_ext. intros i Hi. unfold perf_ops. cbn [rsum res1].
      rewrite !(decide_False (P := pc i = (nc + w)%nat)) by auto. rewrite !decide_True by done. lra.
    + rewrite decide_True by done. unfold Rminus. f_equal. apply rsum_ext. intros i Hi. unfold perf_ops. cbn [rsum res1].
      rewrite !(decide_False (P := pc i = (nc + w)%nat)) by auto. rewrite !decide_True by done. lra.
    + rewrite rsum_zero; [lra|done].
  - intros w' Hw'%elem_of_seq. destruct (decide (w' = w)) as [|Hn]; [done|]. rewrite well_ops_sum.
    assert (match dem w' with Rate q => res1 X (nc + w) (OB (nc + w') q) | _ => 0 end = 0) as ->.
    { destruct (dem w'); try done. cbn [res1]. by rewrite decide_False by lia. }
    rewrite rsum_zero; [lra|]. intros i Hi. destruct (wrow_pc _ _ Hi) as [Hpc _]. unfold perf_ops.
    destruct (dem w'); cbn [rsum res1]; rewrite ?(decide_False (P := (nc + w')%nat = (nc + w)%nat)), ?(decide_False (P := pc i = (nc + w)%nat)) by lia; lra.
Qed.
(** Without wells under pressure control only the rates and shut wells remain. *)
Definition rate_of (d : demand) : R := match d with Rate q => q | _ => 0 end.
Lemma tot_wops X : forallb (λ d, negb (is_press d)) ds = true →
  rsum (tot1 X) wops = rsum (λ w, match dem w with Shut => X (nc + w)%nat * rsum PT (wrow w) | _ => 0 end) (seq 0 (length wrows)) - rsum rate_of ds.
Proof.
  intros Hn. rewrite wops_sum.
  assert (rsum rate_of ds = rsum (λ w, rate_of (dem w)) (seq 0 (length wrows))) as ->.
  { rewrite <- (wk_len _ _ _ _ Hw). clear. induction ds as [|d l IH]; [done|]. cbn [length seq rsum]. f_equal. rewrite IH.
    rewrite <- fmap_S_seq. change (S <$> seq 0 (length l)) with (map S (seq 0 (length l))). by rewrite rsum_map. }
  unfold Rminus. rewrite <- rsum_opp, <- rsum_plus. apply rsum_ext. intros w Hwl%elem_of_seq. rewrite well_ops_sum.
  assert (Hd : is_press (dem w) = false).
  { destruct (ds !! w) as [d|] eqn:E; [|done]. rewrite forallb_forall in Hn. specialize (Hn d). rewrite <- elem_of_list_In in Hn.
    cbn. unfold Datatypes.id. rewrite <- negb_true_iff. apply Hn. by eapply elem_of_list_lookup_2. }
  destruct (dem w) as [|bhp|q|]; try done; cbn [rate_of tot1].
  - rewrite <- rsum_scale. rewrite (rsum_ext _ (λ x, X (nc + w)%nat * PT x)); [lra|]. intros i _. unfold perf_ops. cbn [rsum tot1]. lra.
  - rewrite rsum_zero; [lra|]. intros i _. unfold perf_ops. cbn [rsum tot1]. lra.
  - rewrite rsum_zero; [lra|]. done.
Qed.
End wells.

(** ** Boundary conditions and sources *)
Section bcs.
Context (bc : flowbc) (l : list bcitem) (Hb : bc_ok g bc l).
Notation bops := (concat (map (bc_ops g trans G) (bcs l))).
(** Flow out of the cell at the face of a boundary condition. *)
Definition bpart (X : nat → R) (e : bctype * R * nat) : R :=
  match e.1.1 with
  | BC_PRESSURE => T e.2 * (X (bcell g e.2) - e.1.2 + bsign g e.2 * default 0 (G !! e.2))
  | BC_FLUX_TOTVOL => - e.1.2
  | BC_NOFLOW => 0
  end.
Lemma res_bops X k : rsum (res1 X k) bops = rsum (λ e, if decide (bcell g e.2 = k) then bpart X e else 0) (bcs l).
Proof.
  rewrite rsum_concat, rsum_map. apply rsum_ext. intros [[ty v] f] _. unfold bc_ops, bpart. cbn [fst snd].
  destruct ty; cbn [rsum res1]; destruct (decide (bcell g f = k)) as [<-|]; lra.
Qed.
Definition flux_of (it : bcitem) : R := match it.1.1 with BC_FLUX_TOTVOL => it.1.2 | _ => 0 end.
Lemma tot_bops X : forallb (λ it, not_press it.1.1) l = true → rsum (tot1 X) bops = - rsum flux_of l.
Proof.
  intros Hn. rewrite rsum_concat, rsum_map. unfold bcs. rewrite rsum_concat. change (active <$> l) with (map active l). rewrite rsum_map.
  rewrite <- rsum_opp. apply rsum_ext. intros [[ty v] fs] Hit. unfold active, flux_of. cbn [fst snd].
  rewrite forallb_forall in Hn. specialize (Hn _ ltac:(by apply elem_of_list_In)). destruct ty; try done; cbn [rsum].
  - lra.
  - pose proof (bk_flux _ _ _ Hb _ _ Hit) as Hl. destruct fs as [|f [|??]]; [done| |done]. cbn. lra.
Qed.
End bcs.
Notation sops src := (src_ops g src).
Lemma res_sops X src k : rsum (res1 X k) (sops src) = if decide (k < nc)%nat then - default 0 (src !! k) else 0.
Proof.
  unfold src_ops. rewrite rsum_map. cbn [res1]. destruct (decide (k < nc)%nat) as [Hk|Hk].
  - apply (rsum_single (λ c, - default 0 (src !! c)) k); [apply NoDup_seq|apply elem_of_seq; lia].
  - apply rsum_zero. intros c Hc%elem_of_seq. by rewrite decide_False by lia.
Qed.
Lemma tot_sops X src : rsum (tot1 X) (sops src) = - rsum (λ c, default 0 (src !! c)) (seq 0 nc).
Proof. unfold src_ops. rewrite rsum_map. cbn [tot1]. apply rsum_opp. Qed.

(** ** Fluxes *)
(** The flux array that the post-processing produces. *)
Definition fluxes (X : nat → R) (l : list bcitem) (fflux : list R) : Prop :=
  length fflux = u_nf g ∧
  (∀ f a b, face_between g f (Z.of_nat a) (Z.of_nat b) → fflux !! f = Some (T f * (X a - X b + default 0 (G !! f)))) ∧
  (∀ ty v f, (ty, v, f) ∈ bcs l → fflux !! f = Some (bsign g f * bpart X (ty, v, f))) ∧
  (∀ f a b, face_between g f a b → (a < 0)%Z ∨ (b < 0)%Z → f ∉ snd <$> bcs l → fflux !! f = Some 0).
Lemma bsign_sgn c f : (c < nc)%nat → face_between g f (Z.of_nat c) (-1) ∨ face_between g f (-1) (Z.of_nat c) → bcell g f = c ∧ bsign g f = sgn (fc1 f) c ∧ bsign g f * bsign g f = 1.
Proof.
  intros Hc [[Ea Eb]|[Ea Eb]]; unfold bcell, bsign, sgn; rewrite Ea, Eb; cbn [default from_option]; unfold Datatypes.id.
  - rewrite !decide_True by lia. rewrite Nat2Z.id. split_and!; lra || done.
  - rewrite !decide_False by lia. rewrite Nat2Z.id. split_and!; lra || done.
Qed.
Lemma out_sum X bc l fflux c r : fluxes X l fflux → (l = [] ∨ bc_ok g bc l) → cf !! c = Some r →
  rsum (out g fflux c) r = rsum (fout X c) r + rsum (λ e, if decide (bcell g e.2 = c) then bpart X e else 0) (bcs l).
Proof.
  intros (Hl & Hint & Hbc & Hno) Hb Hr. assert (Hc : (c < nc)%nat) by (rewrite <- (ok_cells _ _ Hg); by eapply lookup_lt_Some).
  assert (Hn : NoDup (snd <$> bcs l)) by (destruct Hb as [->|Hb]; [constructor|apply (bk_nodup _ _ _ Hb)]).
  rewrite (rsum_ext (out g fflux c) (λ f, fout X c f + rsum (λ e, if decide (e.2 = f) then bpart X e else 0) (bcs l))).
  - rewrite rsum_plus. f_equal. rewrite rsum_swap. apply rsum_ext. intros [[ty v] f] He. cbn [snd].
    destruct Hb as [->|Hb]; [by apply elem_of_nil in He|].
    destruct (bk_ext _ _ _ Hb _ _ _ He) as (c' & Hc' & Hf). destruct (bsign_sgn c' f Hc' Hf) as (Ebc & _). rewrite Ebc.
    assert (Hin : f ∈ r ↔ c' = c).
    { rewrite (ok_inc _ _ Hg c r f Hr). split.
      - intros (a & b & [E1 E2] & Hab). destruct Hf as [[E3 E4]|[E3 E4]]; rewrite E1 in E3; rewrite E2 in E4; injection E3 as ->; injection E4 as ->; lia.
      - intros ->. destruct Hf as [Hf|Hf]; eexists _, _; (split; [exact Hf|]); lia. }
    destruct (decide (c' = c)) as [E|E].
    + rewrite (rsum_ext _ (λ f', if decide (f' = f) then bpart X (ty, v, f) else 0)) by (intros f' _; by rewrite (decide_ext (f = f') (f' = f)) by lia).
      rewrite (rsum_single (λ _, bpart X (ty, v, f))); [done|by eapply (ok_nodup _ _ Hg)|by apply Hin].
    + apply rsum_zero. intros f' Hf'. rewrite decide_False; [done|]. intros ->. apply E, Hin, Hf'.
  - intros f Hf. apply (ok_inc _ _ Hg c r f Hr) in Hf as (a & b & Hab & Hc'). pose proof (ok_range _ _ Hg _ _ _ Hab) as (Ra & Rb & Rab).
    unfold out. destruct (decide (0 <= a)%Z) as [Ha|Ha]; [destruct (decide (0 <= b)%Z) as [Hb'|Hb']|].
    + (* interior *)
      rewrite (rsum_zero _ (bcs l)).
      2: { intros [[ty v] f'] He. cbn [snd]. destruct (decide (f' = f)) as [->|]; [|done]. exfalso.
           destruct Hb as [->|Hb]; [by apply elem_of_nil in He|].
           destruct (bk_ext _ _ _ Hb _ _ _ He) as (c' & Hc1 & [[E3 E4]|[E3 E4]]); destruct Hab as [E1 E2]; rewrite E1 in E3; rewrite E2 in E4; injection E3; injection E4; lia. }
      rewrite <- (Z2Nat.id a), <- (Z2Nat.id b) in Hab by lia. rewrite (Hint _ _ _ Hab). destruct Hc' as [E|E].
      * rewrite E, Nat2Z.id in Hab. destruct (neighbour_fst _ _ _ Hab) as [N1 S1]. destruct Hab as [Ea Eb]. rewrite Ea. rewrite decide_True by done.
        unfold fout. rewrite N1, S1. rewrite decide_True by lia. rewrite E, !Nat2Z.id. lra.
      * rewrite E, Nat2Z.id in Hab. destruct (neighbour_snd _ _ _ Hab ltac:(lia)) as [N1 S1]. destruct Hab as [Ea Eb]. rewrite Ea. rewrite decide_False by lia.
        unfold fout. rewrite N1, S1. rewrite decide_True by lia. rewrite E, !Nat2Z.id. lra.
    + assert (Ha' : a = Z.of_nat c) by lia. assert (Hb1 : b = (-1)%Z) by lia. clear Ha. subst a b. pose proof Hab as [Ea Eb]. rewrite Ea.
      destruct (lookup_lt_is_Some_2 fflux f) as [d Ed]; [apply lookup_lt_Some in Ea; rewrite (ok_faces _ _ Hg) in Ea; lia|]. rewrite Ed.
      rewrite decide_True by done. destruct (neighbour_fst _ _ _ Hab) as [N1 S1]. destruct (bsign_sgn c f Hc ltac:(by left)) as (_ & Es & Es2).
      assert (fout X c f = 0) as ->. { unfold fout. rewrite N1, (Hext _ _ _ Hab) by (right; lia). rewrite decide_False by lia. cbn. unfold Datatypes.id. lra. }
      destruct (decide (f ∈ snd <$> bcs l)) as [Hin|Hin].
      * pose proof Hin as Hin'. apply elem_of_list_fmap in Hin' as ([[ty v] f'] & E & He). cbn [snd] in E. subst f'.
        rewrite (Hbc _ _ _ He) in Ed. injection Ed as <-. rewrite Es, S1. rewrite (rsum_one _ _ _ (ty, v, f)); [lra|by eapply NoDup_fmap_1|].
        intros [[ty' v'] f']. cbn [snd]. split; [|by intros [= -> -> ->]]. intros [He' ->].
        eapply elem_of_list_lookup in He as [k Hk]. eapply elem_of_list_lookup in He' as [k' Hk'].
        assert (k = k') as ->; [|congruence]. eapply (NoDup_lookup _ k k' f Hn); rewrite list_lookup_fmap; [by rewrite Hk|by rewrite Hk'].
      * rewrite (Hno _ _ _ Hab ltac:(right; lia) Hin) in Ed. injection Ed as <-. rewrite rsum_zero; [lra|]. intros [[ty v] f'] He. cbn [snd]. rewrite decide_False; [done|].
        intros ->. apply Hin. apply elem_of_list_fmap. by exists (ty, v, f).
    + assert (Ha1 : a = (-1)%Z) by lia. assert (Hb' : b = Z.of_nat c) by lia. clear Ha. subst a b. pose proof Hab as [Ea Eb]. rewrite Ea.
      destruct (lookup_lt_is_Some_2 fflux f) as [d Ed]; [apply lookup_lt_Some in Ea; rewrite (ok_faces _ _ Hg) in Ea; lia|]. rewrite Ed.
      rewrite decide_False by lia. destruct (neighbour_snd _ _ _ Hab ltac:(lia)) as [N1 S1]. destruct (bsign_sgn c f Hc ltac:(by right)) as (_ & Es & Es2).
      assert (fout X c f = 0) as ->. { unfold fout. rewrite N1, (Hext _ _ _ Hab) by (left; lia). rewrite decide_False by lia. cbn. unfold Datatypes.id. lra. }
      destruct (decide (f ∈ snd <$> bcs l)) as [Hin|Hin].
      * pose proof Hin as Hin'. apply elem_of_list_fmap in Hin' as ([[ty v] f'] & E & He). cbn [snd] in E. subst f'.
        rewrite (Hbc _ _ _ He) in Ed. injection Ed as <-. rewrite Es, S1. rewrite (rsum_one _ _ _ (ty, v, f)); [lra|by eapply NoDup_fmap_1|].
        intros [[ty' v'] f']. cbn [snd]. split; [|by intros [= -> -> ->]]. intros [He' ->].
        eapply elem_of_list_lookup in He as [k Hk]. eapply elem_of_list_lookup in He' as [k' Hk'].
        assert (k = k') as ->; [|congruence]. eapply (NoDup_lookup _ k k' f Hn); rewrite list_lookup_fmap; [by rewrite Hk|by rewrite Hk'].
      * rewrite (Hno _ _ _ Hab ltac:(left; lia) Hin) in Ed. injection Ed as <-. rewrite rsum_zero; [lra|]. intros [[ty v] f'] He. cbn [snd]. rewrite decide_False; [done|].
        intros ->. apply Hin. apply elem_of_list_fmap. by exists (ty, v, f).
Qed.
End bal.
