(** Proofs about the hash set model. *)
From Verif Require Import Base HashModel.
From Coq Require Import PeanoNat.

(** ** Powers of two *)

Lemma land_pow2 j p : Nat.land j (2 ^ p - 1) = j mod 2 ^ p.
Proof.
  replace (2 ^ p - 1) with (Nat.ones p).
  - apply Nat.land_ones.
  - rewrite Nat.ones_equiv. lia.
Qed.

Lemma pow2_is_pow2 p : is_pow2 (2 ^ p) = true.
Proof.
  unfold is_pow2. apply bool_decide_eq_true. rewrite land_pow2.
  apply Nat.mod_same. apply Nat.pow_nonzero. lia.
Qed.

Lemma is_pow2_pow2 m : 0 < m → is_pow2 m = true → ∃ p, m = 2 ^ p.
Proof.
  intros Hm H. unfold is_pow2 in H. apply bool_decide_eq_true in H.
  exists (Nat.log2 m). destruct (Nat.log2_spec m Hm) as [H1 H2].
  set (l := Nat.log2 m) in *.
  destruct (decide (m = 2 ^ l)) as [|Hne]; [done|]. exfalso.
  assert (Nat.log2 (m - 1) = l) as Hl by (apply Nat.log2_unique; lia).
  assert (Nat.testbit (Nat.land m (m - 1)) l = true) as Hb.
  { assert (2 ^ l ≠ 0) by (apply Nat.pow_nonzero; lia).
    assert (Nat.testbit m l = true) as B1 by (apply Nat.bit_log2; lia).
    assert (Nat.testbit (m - 1) (Nat.log2 (m - 1)) = true) as B2 by (apply Nat.bit_log2; lia).
    rewrite Hl in B2. by rewrite Nat.land_spec, B1, B2. }
  rewrite H, Nat.bits_0 in Hb. done.
Qed.

(** ** Rounding up to a power of two *)

Definition window (m j n : nat) : Prop := ∃ d, d < n ∧ Nat.testbit m (j + d) = true.

Lemma smear_step m m' n :
  (∀ j, Nat.testbit m' j = true ↔ window m j n) →
  ∀ j, Nat.testbit (Nat.lor m' (Nat.shiftr m' n)) j = true ↔ window m j (n + n).
Proof.
  intros H j. rewrite Nat.lor_spec, orb_true_iff, Nat.shiftr_spec by lia. rewrite !H.
  unfold window. split.
  - intros [(d & Hd & Hb)|(d & Hd & Hb)].
    + exists d. split; [lia|done].
    + exists (n + d). split; [lia|]. by rewrite Nat.add_assoc.
  - intros (d & Hd & Hb). destruct (decide (d < n)).
    + left. eauto.
    + right. exists (d - n). split; [lia|]. rewrite <- Hb. f_equal. lia.
Qed.

Lemma smear_window m j : Nat.testbit (smear m) j = true ↔ window m j 64.
Proof.
  unfold smear, shifts. cbn [foldl].
  assert (∀ j, Nat.testbit m j = true ↔ window m j 1) as H0.
  { intros i. unfold window. split.
    - intros Hb. exists 0. split; [lia|]. by rewrite Nat.add_0_r.
    - intros (d & Hd & Hb). assert (d = 0) as -> by lia. by rewrite Nat.add_0_r in Hb. }
  pose proof (smear_step _ _ _ H0) as H1.
  pose proof (smear_step _ _ _ H1) as H2.
  pose proof (smear_step _ _ _ H2) as H3.
  pose proof (smear_step _ _ _ H3) as H4.
  pose proof (smear_step _ _ _ H4) as H5.
  pose proof (smear_step _ _ _ H5) as H6. apply H6.
Qed.

Lemma smear_ones m : 0 < m → Nat.log2 m < 64 → smear m = Nat.ones (S (Nat.log2 m)).
Proof.
  intros Hm Hl. apply Nat.bits_inj. intros j. apply eq_true_iff_eq.
  rewrite smear_window. destruct (decide (j ≤ Nat.log2 m)) as [Hj|Hj].
  - rewrite Nat.ones_spec_low by lia. split; [done|]. intros _.
    exists (Nat.log2 m - j). split; [lia|].
    replace (j + (Nat.log2 m - j)) with (Nat.log2 m) by lia. apply Nat.bit_log2. lia.
  - rewrite Nat.ones_spec_high by lia. split; [|done].
    intros (d & Hd & Hb). rewrite Nat.bits_above_log2 in Hb by lia. done.
Qed.

Lemma hash_set_size_spec m :
  Nat.log2 m < 64 →
  ∃ p, hash_set_size m = 2 ^ p ∧ m ≤ 2 ^ p ∧ (∀ q, m ≤ 2 ^ q → p ≤ q).
Proof.
  intros Hl. unfold hash_set_size. case_decide as Hm.
  - exists 0. simpl. split_and!; lia.
  - destruct (is_pow2 m) eqn:E.
    + apply is_pow2_pow2 in E as [p ->]; [|lia]. exists p. split; [done|]. split; [lia|].
      intros q Hq. apply (Nat.pow_le_mono_r_iff 2); lia.
    + assert (1 < m) as Hm1.
      { destruct (decide (m = 1)) as [->|]; [|lia]. by vm_compute in E. }
      assert (Nat.log2 (m - 1) ≤ Nat.log2 m) by (apply Nat.log2_le_mono; lia).
      rewrite smear_ones by lia.
      exists (S (Nat.log2 (m - 1))). rewrite Nat.ones_equiv.
      destruct (Nat.log2_spec (m - 1)) as [H1 H2]; [lia|]. split_and!; try lia.
      intros q Hq. destruct (decide (q ≤ Nat.log2 (m - 1))) as [Hle|]; [|lia].
      assert (2 ^ q ≤ 2 ^ Nat.log2 (m - 1)) by (apply Nat.pow_le_mono_r; lia). lia.
Qed.

(** ** Probing *)
Section hash.
Variable h : Z → nat → nat.
Hypothesis h_lt : ∀ k m, (0 ≤ k)%Z → 0 < m → h k m < m.
Local Notation empty := (-1)%Z.

Definition stride (k : Z) (m : nat) : nat := 2 * h k (Nat.max (Nat.div2 m) 1) + 1.
Definition probe (k : Z) (m i : nat) : nat := (h k m + i * stride k m) mod m.

Lemma probe_0 k m : (0 ≤ k)%Z → 0 < m → probe k m 0 = h k m.
Proof.
  intros Hk Hm. unfold probe. rewrite Nat.mul_0_l, Nat.add_0_r.
  apply Nat.mod_small. auto.
Qed.

Lemma probe_S k p i :
  Nat.land (probe k (2 ^ p) i + stride k (2 ^ p)) (2 ^ p - 1) = probe k (2 ^ p) (S i).
Proof.
  rewrite land_pow2. unfold probe.
  rewrite Nat.add_mod_idemp_l by (apply Nat.pow_nonzero; lia).
  f_equal. lia.
Qed.

Lemma probe_lt k m i : 0 < m → probe k m i < m.
Proof. intros. apply Nat.mod_upper_bound. lia. Qed.

Lemma odd_divide_pow2 p d s : Nat.divide (2 ^ p) (d * (2 * s + 1)) → Nat.divide (2 ^ p) d.
Proof.
  revert d. induction p as [|p IH]; intros d H.
  - exists d. simpl. lia.
  - destruct H as [q Hq]. simpl in Hq.
    assert (∃ e, d = 2 * e) as [e ->].
    { destruct (Nat.Even_or_Odd d) as [[e ->]|[e ->]]; [eauto|]. exfalso. nia. }
    destruct (IH e) as [r Hr].
    + exists q. nia.
    + exists r. simpl. lia.
Qed.

Lemma probe_inj k p i1 i2 :
  i1 < 2 ^ p → i2 < 2 ^ p → probe k (2 ^ p) i1 = probe k (2 ^ p) i2 → i1 = i2.
Proof.
  assert (∀ i1 i2, i1 ≤ i2 → i2 < 2 ^ p → probe k (2 ^ p) i1 = probe k (2 ^ p) i2 → i1 = i2) as H.
  { clear i1 i2. intros i1 i2 H1 H2 H. unfold probe in H.
    assert (2 ^ p ≠ 0) as Hp by (apply Nat.pow_nonzero; lia).
    set (a := h k (2 ^ p) + i1 * stride k (2 ^ p)) in *.
    set (b := h k (2 ^ p) + i2 * stride k (2 ^ p)) in *.
    assert (b = a + (i2 - i1) * stride k (2 ^ p)) as Hb.
    { unfold a, b. rewrite Nat.mul_sub_distr_r.
      assert (i1 * stride k (2 ^ p) ≤ i2 * stride k (2 ^ p)) by (apply Nat.mul_le_mono_r; lia). lia. }
    assert (Nat.divide (2 ^ p) ((i2 - i1) * stride k (2 ^ p))) as Hd.
    { pose proof (Nat.div_mod a (2 ^ p) Hp). pose proof (Nat.div_mod b (2 ^ p) Hp).
      exists (b / 2 ^ p - a / 2 ^ p). rewrite (Nat.mul_comm (_ - _) (2 ^ p)), Nat.mul_sub_distr_l. clearbody a b.
      set (X := 2 ^ p * (a / 2 ^ p)) in *. set (Y := 2 ^ p * (b / 2 ^ p)) in *.
      set (D := (i2 - i1) * stride k (2 ^ p)) in *. set (r := a mod 2 ^ p) in *.
      set (r' := b mod 2 ^ p) in *. clearbody X Y D r r'. lia. }
    apply odd_divide_pow2 in Hd as [q Hq].
    destruct q as [|q]; [lia|]. simpl in Hq. pose proof (Nat.le_0_l (q * 2 ^ p)). lia. }
  intros ?? He. destruct (decide (i1 ≤ i2)); [by apply H|]. symmetry. apply H; try done; lia.
Qed.

Lemma probe_surj k p j : j < 2 ^ p → ∃ i, i < 2 ^ p ∧ probe k (2 ^ p) i = j.
Proof.
  intros Hj. set (m := 2 ^ p) in *.
  assert (NoDup (probe k m <$> seq 0 m)) as Hnd.
  { apply NoDup_alt. intros a b x Ha Hb. rewrite list_lookup_fmap in Ha, Hb.
    destruct (seq 0 m !! a) as [a'|] eqn:Ea; [|done]. destruct (seq 0 m !! b) as [b'|] eqn:Eb; [|done].
    apply lookup_seq in Ea as [-> Ha']. apply lookup_seq in Eb as [-> Hb'].
    simpl in *. simplify_eq. symmetry. eapply (probe_inj k p); done. }
  assert (incl (seq 0 m) (probe k m <$> seq 0 m)) as Hincl.
  { apply NoDup_length_incl.
    - by apply NoDup_ListNoDup.
    - rewrite fmap_length. done.
    - intros x Hx. apply elem_of_list_In in Hx. apply elem_of_list_fmap in Hx as (y & -> & _).
      apply in_seq. pose proof (probe_lt k m y). lia. }
  specialize (Hincl j). rewrite in_seq in Hincl.
  assert (In j (probe k m <$> seq 0 m)) as Hin by (apply Hincl; lia).
  apply elem_of_list_In in Hin. apply elem_of_list_fmap in Hin as (i & -> & Hi).
  apply elem_of_seq in Hi. exists i. split; [lia|done].
Qed.

(** ** Table invariant *)

Record inv (p : nat) (s : list Z) : Prop := {
  inv_len : length s = 2 ^ p;
  inv_get : ∀ j x, s !! j = Some x → x ≠ empty →
    (0 ≤ x)%Z ∧ ∃ i, i < 2 ^ p ∧ j = probe x (2 ^ p) i ∧
      ∀ i', i' < i → ∃ y, s !! probe x (2 ^ p) i' = Some y ∧ y ≠ empty ∧ y ≠ x }.

Definition members (s : list Z) : list Z := filter (λ x, x ≠ empty) s.

Lemma elem_members s x : x ∈ members s ↔ x ≠ empty ∧ x ∈ s.
Proof. unfold members. rewrite elem_of_list_filter. done. Qed.

Lemma inv_unique p s i j x :
  inv p s → x ≠ empty → s !! i = Some x → s !! j = Some x → i = j.
Proof.
  intros [Hl Hg] Hx Hi Hj.
  destruct (Hg i x Hi Hx) as (_ & a & Ha & -> & Hpa).
  destruct (Hg j x Hj Hx) as (_ & b & Hb & -> & Hpb).
  destruct (Nat.lt_trichotomy a b) as [Hlt|[->|Hlt]]; [|done|].
  - destruct (Hpb a Hlt) as (y & Hy & _ & Hne). congruence.
  - destruct (Hpa b Hlt) as (y & Hy & _ & Hne). congruence.
Qed.

Lemma members_NoDup p s : inv p s → NoDup (members s).
Proof.
  intros Hinv.
  assert (∀ i j x, x ≠ empty → s !! i = Some x → s !! j = Some x → i = j) as H
    by (intros; eapply inv_unique; eauto).
  clear Hinv p. unfold members. induction s as [|y s IH]; [constructor|].
  assert (NoDup (filter (λ x, x ≠ empty) s)) as Hs.
  { apply IH. intros i j x Hx Hi Hj. specialize (H (S i) (S j) x Hx Hi Hj). lia. }
  rewrite filter_cons. case_decide as Hy; [|done]. constructor; [|done].
  rewrite elem_of_list_filter. intros [_ Hin]. apply elem_of_list_lookup in Hin as [i Hi].
  specialize (H 0 (S i) y Hy eq_refl Hi). lia.
Qed.

Lemma members_nonneg p s x : inv p s → x ∈ members s → (0 ≤ x)%Z.
Proof.
  intros [Hl Hg] Hx. apply elem_members in Hx as [Hx Hin].
  apply elem_of_list_lookup in Hin as [i Hi]. by destruct (Hg i x Hi Hx).
Qed.

(** Writing a key to the first free slot of its probe sequence. *)
Lemma inv_write p s k i :
  inv p s → (0 ≤ k)%Z → i < 2 ^ p →
  s !! probe k (2 ^ p) i = Some empty →
  (∀ i', i' < i → ∃ y, s !! probe k (2 ^ p) i' = Some y ∧ y ≠ empty ∧ y ≠ k) →
  inv p (<[probe k (2 ^ p) i := k]> s).
Proof.
  intros [Hl Hg] Hk Hi He Hpath. split; [by rewrite insert_length|].
  intros j x Hj Hx. destruct (decide (j = probe k (2 ^ p) i)) as [->|Hne].
  - rewrite list_lookup_insert in Hj by (eapply lookup_lt_Some; done). simplify_eq.
    split; [done|]. exists i. split; [done|]. split; [done|]. intros i' Hi'.
    destruct (Hpath i' Hi') as (y & Hy & Hy1 & Hy2). exists y.
    rewrite list_lookup_insert_ne; [done|]. intros Heq.
    rewrite Heq in He. congruence.
  - rewrite list_lookup_insert_ne in Hj by done.
    destruct (Hg j x Hj Hx) as (Hx0 & a & Ha & -> & Hpa). split; [done|].
    exists a. split; [done|]. split; [done|]. intros i' Hi'.
    destruct (Hpa i' Hi') as (y & Hy & Hy1 & Hy2). exists y.
    rewrite list_lookup_insert_ne; [done|]. intros Heq. congruence.
Qed.

Lemma members_write s j k x :
  s !! j = Some empty → k ≠ empty →
  x ∈ members (<[j := k]> s) ↔ x = k ∨ x ∈ members s.
Proof.
  intros Hj Hk. rewrite !elem_members. rewrite !elem_of_list_lookup. split.
  - intros [Hx (i & Hi)]. destruct (decide (i = j)) as [->|Hne].
    + rewrite list_lookup_insert in Hi by (eapply lookup_lt_Some; done). simplify_eq. by left.
    + rewrite list_lookup_insert_ne in Hi by done. eauto.
  - intros [->|[Hx (i & Hi)]].
    + split; [done|]. exists j. apply list_lookup_insert. eapply lookup_lt_Some; done.
    + split; [done|]. exists i. rewrite list_lookup_insert_ne; [done|]. congruence.
Qed.

(** The loop stops at the first slot of the probe sequence that is free or
    holds the key, or at the last slot. *)
Lemma probe_loop_correct k p s n i0 :
  inv p s → i0 + n < 2 ^ p → i0 + n = 2 ^ p - 1 →
  (∀ i', i' < i0 → ∃ y, s !! probe k (2 ^ p) i' = Some y ∧ y ≠ empty ∧ y ≠ k) →
  ∃ i, i < 2 ^ p ∧ probe_loop n k (2 ^ p) (stride k (2 ^ p)) (probe k (2 ^ p) i0) s
        = Some (probe k (2 ^ p) i) ∧
    (∀ i', i' < i → ∃ y, s !! probe k (2 ^ p) i' = Some y ∧ y ≠ empty ∧ y ≠ k) ∧
    (i = 2 ^ p - 1 ∨ ∃ y, s !! probe k (2 ^ p) i = Some y ∧ (y = empty ∨ y = k)).
Proof.
  intros Hinv. revert i0. induction n as [|n IH]; intros i0 Hlt Heq Hpath.
  - assert (probe k (2 ^ p) i0 < length s) as Hb.
    { rewrite (inv_len _ _ Hinv). apply probe_lt. lia. }
    apply lookup_lt_is_Some_2 in Hb as [y Hy].
    exists i0. simpl. rewrite Hy. simpl. split; [lia|]. split; [done|]. split; [done|]. left. lia.
  - assert (probe k (2 ^ p) i0 < length s) as Hb.
    { rewrite (inv_len _ _ Hinv). apply probe_lt. lia. }
    apply lookup_lt_is_Some_2 in Hb as [y Hy].
    cbn [probe_loop]. rewrite Hy. simpl. case_decide as Hd.
    + rewrite probe_S. apply IH; [lia|lia|].
      intros i' Hi'. destruct (decide (i' = i0)) as [->|]; [by exists y|]. apply Hpath. lia.
    + exists i0. split; [lia|]. split; [done|]. split; [done|]. right. exists y. split; [done|].
      destruct (decide (y = empty)); [by left|]. destruct (decide (y = k)); [by right|].
      exfalso. apply Hd. done.
Qed.

Lemma insert_core_correct k p s :
  inv p s → (0 ≤ k)%Z →
  ∃ j s', insert_core h k (2 ^ p) s = Some (j, s') ∧
    ((j < 2 ^ p ∧ inv p s' ∧ ∀ x, x ∈ members s' ↔ x = k ∨ x ∈ members s) ∨
     (j = 2 ^ p + 1 ∧ s' = s ∧ k ∉ members s ∧ empty ∉ s)).
Proof.
  intros Hinv Hk. assert (0 < 2 ^ p) as Hp by (apply Nat.neq_0_lt_0, Nat.pow_nonzero; lia).
  unfold insert_core. rewrite decide_True by (split; [done|]; by rewrite pow2_is_pow2).
  rewrite decide_True by auto.
  assert (k ≠ empty) as Hke by lia.
  pose proof (probe_0 k (2 ^ p) Hk Hp) as Hp0.
  assert (h k (2 ^ p) < length s) as Hb by (rewrite (inv_len _ _ Hinv); auto).
  destruct (lookup_lt_is_Some_2 _ _ Hb) as [x Hx]. rewrite Hx. cbn [mbind option_bind].
  case_decide as Hxe.
  { subst x. rewrite upd_Some by done. cbn [mbind option_bind]. rewrite list_lookup_insert by done. cbn [mbind option_bind].
    rewrite decide_True by done. eexists _, _. split; [done|]. left.
    split; [auto|]. rewrite <- Hp0 in Hx |- *. split.
    - apply inv_write; try done. intros; lia.
    - intros y. by apply members_write. }
  cbn [mbind option_bind]. rewrite Hx. cbn [mbind option_bind]. case_decide as Hxk.
  { subst x. eexists _, _. split; [done|]. left. split; [auto|]. split; [done|].
    intros y. split; [by right|]. intros [->|?]; [|done]. apply elem_members.
    split; [done|]. by eapply elem_of_list_lookup_2. }
  fold (stride k (2 ^ p)). rewrite <- Hp0.
  destruct (probe_loop_correct k p s (2 ^ p - 1) 0 Hinv) as (i & Hi & E & Hpath & Hend); [lia|lia|intros; lia|].
  rewrite E. cbn [mbind option_bind].
  assert (probe k (2 ^ p) i < length s) as Hb2.
  { rewrite (inv_len _ _ Hinv). by apply probe_lt. }
  destruct (lookup_lt_is_Some_2 _ _ Hb2) as [y Hy]. rewrite Hy. cbn [mbind option_bind].
  case_decide as Hd.
  - rewrite upd_Some by done. cbn [mbind option_bind]. eexists _, _. split; [done|]. left.
    split; [by apply probe_lt|]. destruct Hd as [->| ->].
    + split; [by apply inv_write|]. intros z. by apply members_write.
    + rewrite list_insert_id by done. split; [done|]. intros z. split; [by right|].
      intros [->|?]; [|done]. apply elem_members. split; [done|]. by eapply elem_of_list_lookup_2.
  - eexists _, _. split; [done|]. right. split; [done|]. split; [done|].
    assert (i = 2 ^ p - 1) as ->.
    { destruct Hend as [->|(z & Hz & Hd')]; [done|]. rewrite Hy in Hz. simplify_eq. }
    assert (∀ j z, s !! j = Some z → z ≠ empty ∧ z ≠ k) as Hall.
    { intros j z Hz. pose proof (lookup_lt_Some _ _ _ Hz) as Hlt.
      rewrite (inv_len _ _ Hinv) in Hlt. destruct (probe_surj k p j Hlt) as (a & Ha & <-).
      destruct (decide (a = 2 ^ p - 1)) as [->|Hne].
      - rewrite Hy in Hz. simplify_eq. split; intros ->; apply Hd; auto.
      - destruct (Hpath a) as (z' & Hz' & ? & ?); [lia|]. rewrite Hz in Hz'. by simplify_eq. }
    split.
    + intros Hin. apply elem_members in Hin as [_ Hin].
      apply elem_of_list_lookup in Hin as [j Hj]. by destruct (Hall _ _ Hj).
    + intros Hin. apply elem_of_list_lookup in Hin as [j Hj]. by destruct (Hall _ _ Hj).
Qed.

Lemma members_full s : empty ∉ s → members s = s.
Proof.
  unfold members. induction s as [|x s IH]; [done|]. rewrite not_elem_of_cons. intros [H1 H2].
  rewrite filter_cons_True by done. by rewrite IH.
Qed.

Lemma members_length s : length (members s) ≤ length s.
Proof. apply filter_length. Qed.

(** Number of members before and after. *)
Lemma NoDup_same_length (l k : list Z) :
  NoDup l → NoDup k → (∀ x, x ∈ l ↔ x ∈ k) → length l = length k.
Proof. intros. apply Permutation_length. by apply NoDup_Permutation. Qed.

Lemma empty_inv p : inv p (replicate (2 ^ p) empty).
Proof.
  split; [apply replicate_length|]. intros j x Hj Hx. apply lookup_replicate in Hj as [-> _]. done.
Qed.

Lemma members_empty n : members (replicate n empty) = [].
Proof. unfold members. induction n; [done|]. simpl. by rewrite filter_cons_False by auto. Qed.

Lemma reinsert_correct l p s :
  inv p s → (∀ x, x ∈ l → (0 ≤ x)%Z) → length l + length (members s) ≤ 2 ^ p →
  ∃ s', reinsert h l (2 ^ p) s = Some s' ∧ inv p s' ∧
    (∀ x, x ∈ members s' ↔ x ∈ l ∨ x ∈ members s).
Proof.
  revert s. induction l as [|k l IH]; intros s Hinv Hnn Hlen; simpl.
  - exists s. split; [done|]. split; [done|]. intros x. split; [by right|].
    intros [H|H]; [by apply elem_of_nil in H|done].
  - destruct (insert_core_correct k p s Hinv) as (j & s1 & E & [(Hj & Hinv1 & Hm)|(-> & -> & Hk & He)]).
    { apply Hnn. left. }
    + rewrite E. simpl. rewrite decide_True by done.
      assert (length (members s1) ≤ S (length (members s))) as Hl1.
      { transitivity (length (k :: members s)); [|done].
        apply submseteq_length. apply NoDup_submseteq; [by eapply members_NoDup|].
        intros x Hx. apply Hm in Hx. rewrite elem_of_cons. done. }
      destruct (IH s1 Hinv1) as (s2 & E2 & Hinv2 & Hm2).
      * intros x Hx. apply Hnn. by right.
      * simpl in Hlen. lia.
      * exists s2. split; [done|]. split; [done|]. intros x. rewrite Hm2, Hm, elem_of_cons. tauto.
    + exfalso. rewrite members_full in Hlen by done. rewrite (inv_len _ _ Hinv) in Hlen.
      simpl in Hlen. lia.
Qed.

Record winv (t : hash_set) (p : nat) : Prop := {
  wi_m : hs_m t = 2 ^ p;
  wi_inv : inv p (hs_s t) }.

Lemma insert_correct k t p o :
  winv t p → (0 ≤ k)%Z →
  ∃ r t' o' p', insert h k t o = Some (r, t', o') ∧ winv t' p' ∧
    ((r = k ∧ ∀ x, x ∈ members (hs_s t') ↔ x = k ∨ x ∈ members (hs_s t)) ∨
     (r = empty ∧ t' = t)) ∧
    (o = [] → r = k ∧ o' = []) ∧
    (k ∈ members (hs_s t) ∨ length (members (hs_s t)) < hs_m t → r = k ∧ hs_m t' = hs_m t ∧ o' = o) ∧
    hs_m t ≤ hs_m t'.
Proof.
  intros [Hm Hinv] Hk. unfold insert. rewrite decide_True by done. rewrite Hm, pow2_is_pow2.
  destruct (insert_core_correct k p (hs_s t) Hinv Hk) as (j & s1 & -> & [(Hj & Hinv1 & Hmm)|(-> & -> & Hkn & He)]).
  - cbn [mbind option_bind hs_m hs_s fst snd]. rewrite decide_False by lia. eexists _, _, _, p. split; [done|].
    split; [by split|]. split; [left; done|]. split; [done|]. split; [done|]. simpl; lia.
  - cbn [mbind option_bind hs_m hs_s fst snd]. rewrite decide_True by done. unfold expand. cbn [mbind option_bind hs_m hs_s fst snd].
    assert (0 < 2 ^ p) by (apply Nat.neq_0_lt_0, Nat.pow_nonzero; lia).
    rewrite decide_True by lia.
    assert (k ∈ members (hs_s t) ∨ length (members (hs_s t)) < 2 ^ p → False) as Hcap.
    { intros [?|Hlt]; [done|]. rewrite members_full in Hlt by done.
      rewrite (inv_len _ _ Hinv) in Hlt. lia. }
    destruct (next_alloc o) as [b o1] eqn:Eo. destruct b.
    + replace (2 * 2 ^ p) with (2 ^ S p) by done.
      rewrite take_ge by (rewrite (inv_len _ _ Hinv); done).
      destruct (reinsert_correct (hs_s t) (S p) (replicate (2 ^ S p) empty)) as (s2 & E2 & Hinv2 & Hm2).
      * apply empty_inv.
      * intros x Hx. apply (members_nonneg p (hs_s t)); [done|]. by rewrite members_full.
      * rewrite members_empty. simpl. rewrite (inv_len _ _ Hinv). lia.
      * rewrite E2. cbn [mbind option_bind hs_m hs_s fst snd].
        assert (∀ x, x ∈ members s2 ↔ x ∈ members (hs_s t)) as Hms.
        { intros x. rewrite Hm2, members_empty, members_full by done. rewrite elem_of_nil. tauto. }
        destruct (insert_core_correct k (S p) s2 Hinv2 Hk) as (j & s3 & -> & [(Hj & Hinv3 & Hmm)|(-> & -> & Hkn2 & He2)]).
        -- cbn [mbind option_bind hs_m hs_s fst snd]. rewrite decide_True by done. eexists _, _, _, (S p). split; [done|].
           split; [by split|]. split.
           { left. split; [done|]. intros x. cbn [hs_s]. rewrite Hmm, Hms. done. }
           split; [|split].
           ++ intros ->. simpl in Eo. by simplify_eq.
           ++ intros Hc. by destruct (Hcap Hc).
           ++ cbn [hs_m]. simpl. lia.
        -- exfalso. assert (length (members s2) = length (members (hs_s t))) as Hl.
           { apply NoDup_same_length; [by eapply members_NoDup..|done]. }
           rewrite !members_full in Hl by done.
           rewrite (inv_len _ _ Hinv), (inv_len _ _ Hinv2) in Hl. simpl in Hl. lia.
    + cbn [mbind option_bind hs_m hs_s fst snd]. eexists _, _, _, p. split; [done|]. split; [by split|].
      split; [right; split; [done|]; destruct t; simpl in *; by subst|].
      split; [|split].
      * intros ->. simpl in Eo. by simplify_eq.
      * intros Hc. by destruct (Hcap Hc).
      * simpl; lia.
Qed.

Lemma count_correct t p : winv t p → count_elms t = length (members (hs_s t)).
Proof.
  intros [Hm Hinv]. unfold count_elms.
  rewrite take_ge by (rewrite (inv_len _ _ Hinv); lia).
  assert (∀ l n, foldl (λ n x, n + (if decide (x ≠ empty) then 1 else 0)) n l = n + length (members l)) as H.
  { unfold members. induction l as [|x l IH]; intros n; simpl; [lia|]. rewrite IH, filter_cons.
    repeat case_decide; simpl; try done; lia. }
  by rewrite H.
Qed.

Lemma insert_all_correct ks t p :
  winv t p → Forall (λ k, 0 ≤ k)%Z ks →
  ∃ t' p', insert_all h ks t [] = Some (ks, t', []) ∧ winv t' p' ∧
    (∀ x, x ∈ members (hs_s t') ↔ x ∈ ks ∨ x ∈ members (hs_s t)).
Proof.
  intros Hw Hks. revert t p Hw. induction Hks as [|k ks Hk Hks IH]; intros t p Hw; cbn [insert_all].
  - exists t, p. split; [done|]. split; [done|]. intros x. rewrite elem_of_nil. tauto.
  - destruct (insert_correct k t p [] Hw Hk) as (r & t1 & o1 & p1 & E & Hw1 & Hmem & Ho & _).
    destruct (Ho eq_refl) as [-> ->]. rewrite E. cbn [mbind option_bind].
    destruct (IH t1 p1 Hw1) as (t2 & p2 & E2 & Hw2 & Hm2). rewrite E2. cbn [mbind option_bind].
    exists t2, p2. split; [done|]. split; [done|]. intros x. rewrite Hm2.
    destruct Hmem as [[_ Hmem]|[? _]]; [|lia]. rewrite Hmem, elem_of_cons. tauto.
Qed.

Lemma insert_all_any ks t p o :
  winv t p → Forall (λ k, 0 ≤ k)%Z ks →
  ∃ rs t' o' p', insert_all h ks t o = Some (rs, t', o') ∧ winv t' p' ∧
    Forall2 (λ k r, r = k ∨ r = empty) ks rs ∧
    (∀ x, x ∈ members (hs_s t') ↔ (x ∈ rs ∧ x ≠ empty) ∨ x ∈ members (hs_s t)).
Proof.
  intros Hw Hks. revert t p o Hw. induction Hks as [|k ks Hk Hks IH]; intros t p o Hw; cbn [insert_all].
  - eexists _, t, _, p. split; [done|]. split; [done|]. split; [constructor|].
    intros x. rewrite elem_of_nil. tauto.
  - destruct (insert_correct k t p o Hw Hk) as (r & t1 & o1 & p1 & E & Hw1 & Hmem & _).
    rewrite E. cbn [mbind option_bind].
    destruct (IH t1 p1 o1 Hw1) as (rs & t2 & o2 & p2 & E2 & Hw2 & Hf & Hm2). rewrite E2. cbn [mbind option_bind].
    eexists _, t2, _, p2. split; [done|]. split; [done|]. split.
    + constructor; [|done]. destruct Hmem as [[-> _]|[-> _]]; auto.
    + intros x. rewrite Hm2, elem_of_cons. destruct Hmem as [[-> Hmem]|[-> ->]].
      * rewrite Hmem. split; [|naive_solver]. intros [?|[->|?]]; [naive_solver| |naive_solver].
        left. split; [by left|lia].
      * naive_solver.
Qed.

(** Growth only when needed. *)
Lemma insert_all_small ks t p o :
  winv t p → Forall (λ k, 0 ≤ k)%Z ks →
  length (remove_dups (ks ++ members (hs_s t))) ≤ hs_m t →
  ∃ t', insert_all h ks t o = Some (ks, t', o) ∧ hs_m t' = hs_m t ∧ winv t' p ∧
    (∀ x, x ∈ members (hs_s t') ↔ x ∈ ks ∨ x ∈ members (hs_s t)).
Proof.
  intros Hw Hks. revert t Hw. induction Hks as [|k ks Hk Hks IH]; intros t Hw Hlen; cbn [insert_all].
  - exists t. split; [done|]. split; [done|]. split; [done|]. intros x. rewrite elem_of_nil. tauto.
  - destruct (insert_correct k t p o Hw Hk) as (r & t1 & o1 & p1 & E & Hw1 & Hmem & _ & Hcap & _).
    destruct Hcap as (-> & Hm & ->).
    { destruct (decide (k ∈ members (hs_s t))) as [|Hn]; [by left|]. right.
      apply Nat.lt_le_trans with (length (k :: members (hs_s t))); [simpl; lia|].
      etrans; [|exact Hlen]. apply submseteq_length. apply NoDup_submseteq.
      - constructor; [done|]. eapply members_NoDup, wi_inv; done.
      - intros x Hx. apply elem_of_remove_dups. apply elem_of_app.
        rewrite elem_of_cons in Hx |- *. naive_solver. }
    assert (p1 = p) as ->.
    { pose proof (wi_m _ _ Hw) as H1. pose proof (wi_m _ _ Hw1) as H2.
      apply (Nat.pow_inj_r 2); [lia|]. congruence. }
    destruct Hmem as [[_ Hmem]|[? _]]; [|lia].
    rewrite E. cbn [mbind option_bind].
    destruct (IH t1 Hw1) as (t2 & E2 & Hm2 & Hw2 & Hmem2).
    + rewrite Hm. etrans; [|exact Hlen]. apply submseteq_length. apply NoDup_submseteq.
      * apply NoDup_remove_dups.
      * intros x. rewrite !elem_of_remove_dups, !elem_of_app, elem_of_cons, Hmem. tauto.
    + rewrite E2. cbn [mbind option_bind]. exists t2. split; [done|]. split; [congruence|].
      split; [done|]. intros x. rewrite Hmem2, Hmem, elem_of_cons. tauto.
Qed.
End hash.
