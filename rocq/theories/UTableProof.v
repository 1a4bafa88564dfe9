(** Uniform tables: lemmas. *)
From Coq Require Import Reals Lra Psatz.
From Verif Require Import Base TableModel.
Local Open Scope R_scope.

(** States that the constructor and rescaleDomain to proper intervals reach. *)
Definition ut_ok (t : utable) (xmin xmax : R) (y : list R) : Prop :=
  ut_xmin t = xmin ∧ ut_xmax t = xmax ∧ ut_y t = y ∧ (1 < length y)%nat ∧ xmin < xmax ∧
  ut_xdelta t = (xmax - xmin) / INR (length y - 1).
(** The [i]-th sample point. *)
Definition node (xmin xmax : R) (n i : nat) : R := xmin + INR i * ((xmax - xmin) / INR (n - 1)).

Lemma delta_pos xmin xmax (n : nat) : (1 < n)%nat → xmin < xmax → 0 < (xmax - xmin) / INR (n - 1).
Proof. intros Hn Hx. apply Rdiv_lt_0_compat; [lra|]. apply lt_0_INR. lia. Qed.
Lemma node_last xmin xmax n : (1 < n)%nat → node xmin xmax n (n - 1) = xmax.
Proof.
  intros Hn. unfold node. assert (INR (n - 1) ≠ 0) by (apply not_0_INR; lia). field. done.
Qed.
Lemma node_0 xmin xmax n : node xmin xmax n 0 = xmin.
Proof. unfold node. simpl. lra. Qed.
Lemma node_S xmin xmax n i : node xmin xmax n (S i) = node xmin xmax n i + (xmax - xmin) / INR (n - 1).
Proof. unfold node. rewrite S_INR. lra. Qed.
Lemma node_le xmin xmax n i j : (1 < n)%nat → xmin < xmax → (i <= j)%nat → node xmin xmax n i <= node xmin xmax n j.
Proof.
  intros Hn Hx Hij. unfold node. pose proof (delta_pos _ _ n Hn Hx). apply le_INR in Hij. nra.
Qed.

Lemma rdiv_Some a b : b ≠ 0 → rdiv a b = Some (a / b).
Proof. intros H. unfold rdiv. destruct (Req_EM_T b 0); done. Qed.
Lemma at_int_nat {A} (l : list A) (i : nat) : at_int l (Z.of_nat i) = l !! i.
Proof. unfold at_int. rewrite decide_True by lia. by rewrite Nat2Z.id. Qed.
Lemma Int_part_nat (p : R) (i : nat) : INR i <= p < INR i + 1 → Int_part p = Z.of_nat i.
Proof.
  intros [H1 H2]. destruct (base_Int_part p) as [H3 H4]. rewrite INR_IZR_INZ in H1, H2.
  assert (Int_part p < Z.of_nat i + 1)%Z by (apply lt_IZR; rewrite plus_IZR; lra).
  assert (Z.of_nat i < Int_part p + 1)%Z by (apply lt_IZR; rewrite plus_IZR; lra). lia.
Qed.

Section ut.
  Context (t : utable) (xmin xmax : R) (y : list R) (O : ut_ok t xmin xmax y).
  Let n := length y.

  Lemma ut_pos x (i : nat) : node xmin xmax n i <= x <= node xmin xmax n (S i) → (S i < n)%nat →
    xmin <= x <= xmax ∧ ut_xdelta t ≠ 0 ∧
    ∃ p, p = (x - xmin) / ut_xdelta t ∧ INR i <= p <= INR i + 1 ∧ p - INR i = (x - node xmin xmax n i) / ut_xdelta t.
  Proof using O.
    destruct O as (E1 & E2 & E3 & Hn & Hx & Ed). intros [H1 H2] Hi. fold n in Ed, Hn.
    pose proof (delta_pos xmin xmax n Hn Hx) as Hd. rewrite Ed.
    pose proof (node_le xmin xmax n 0 i Hn Hx ltac:(lia)) as Ha. rewrite node_0 in Ha.
    pose proof (node_le xmin xmax n (S i) (n - 1) Hn Hx ltac:(lia)) as Hb. rewrite node_last in Hb by done.
    split; [lra|]. split; [lra|]. eexists. split; [done|].
    rewrite node_S in H2. unfold node in *. set (d := (xmax - xmin) / INR (n - 1)) in *.
    split; [split|].
    - apply Rmult_le_reg_r with d; [done|]. unfold Rdiv. rewrite Rmult_assoc, Rinv_l by lra. lra.
    - apply Rmult_le_reg_r with d; [done|]. unfold Rdiv. rewrite Rmult_assoc, Rinv_l by lra. lra.
    - field. lra.
  Qed.

  Lemma clamp_id x : xmin <= x <= xmax → Rmax (Rmin x (ut_xmax t)) (ut_xmin t) = x.
  Proof using O.
    destruct O as (E1 & E2 & _). intros [H1 H2]. rewrite E1, E2. rewrite Rmin_left by lra. by rewrite Rmax_left by lra.
  Qed.

  Lemma ut_cell x i y0 y1 : y !! i = Some y0 → y !! S i = Some y1 →
    node xmin xmax n i <= x <= node xmin xmax n (S i) →
    ut_eval t x = Some (y0 + (y1 - y0) * ((x - node xmin xmax n i) / ((xmax - xmin) / INR (n - 1)))).
  Proof using O.
    intros H0 H1 Hx. assert (S i < n)%nat as Hi by (by eapply lookup_lt_Some).
    destruct (ut_pos x i Hx Hi) as (Hr & Hd & p & Hp & Hpi & Hw).
    unfold ut_eval. rewrite clamp_id by done. destruct O as (E1 & E2 & E3 & Hn & Hxx & Ed). fold n in Ed, Hn.
    rewrite E1, E3. fold n. rewrite rdiv_Some by done. cbn [mbind option_bind]. rewrite <- Hp.
    rewrite <- Ed, <- Hw. destruct (Req_dec p (INR i + 1)) as [Heq|Hne].
    - rewrite (Int_part_nat p (S i)) by (rewrite S_INR; lra).
      case_decide as Hc.
      + rewrite last_lookup. replace (pred (length y)) with (S i) by (fold n; lia). rewrite H1. f_equal. rewrite Heq. lra.
      + rewrite at_int_nat, H1. cbn [mbind option_bind].
        replace (Z.of_nat (S i) + 1)%Z with (Z.of_nat (S (S i))) by lia. rewrite at_int_nat.
        assert (is_Some (y !! S (S i))) as [y2 ->] by (apply lookup_lt_is_Some; fold n; lia).
        cbn [mbind option_bind]. f_equal. rewrite <- INR_IZR_INZ, S_INR, Heq. lra.
    - rewrite (Int_part_nat p i) by lra. rewrite decide_False by lia.
      rewrite at_int_nat, H0. cbn [mbind option_bind].
      replace (Z.of_nat i + 1)%Z with (Z.of_nat (S i)) by lia. rewrite at_int_nat, H1.
      cbn [mbind option_bind]. f_equal. rewrite <- INR_IZR_INZ. lra.
  Qed.

  (** every point of the domain is in a cell *)
  Lemma cell_of x : xmin <= x <= xmax → ∃ i, (S i < n)%nat ∧ node xmin xmax n i <= x <= node xmin xmax n (S i).
  Proof using O.
    destruct O as (E1 & E2 & E3 & Hn & Hxx & Ed). fold n in Ed, Hn. intros Hx.
    assert (∀ m, (m <= n - 1)%nat → x <= node xmin xmax n m → (0 < m)%nat →
      ∃ i, (S i <= m)%nat ∧ node xmin xmax n i <= x <= node xmin xmax n (S i)) as H.
    { induction m as [|m IH]; [lia|]. intros Hm Hle _.
      destruct (Rle_dec (node xmin xmax n m) x) as [Hge|Hlt].
      - exists m. split; [lia|]. done.
      - destruct m as [|m]; [rewrite node_0 in Hlt; lra|]. destruct IH as (i & ? & ?); [lia|lra|lia|].
        exists i. split; [lia|done]. }
    destruct (H (n - 1)%nat) as (i & Hi & Hc); [lia|rewrite node_last; [lra|done]|lia|].
    exists i. split; [lia|done].
  Qed.

  Lemma ut_left x : x <= xmin → ut_eval t x = head y.
  Proof using O.
    intros Hx. assert (ut_eval t x = ut_eval t xmin) as ->.
    { unfold ut_eval. destruct O as (E1 & E2 & E3 & Hn & Hxx & Ed). rewrite E1, E2.
      rewrite (Rmin_left x), (Rmin_left xmin) by lra. by rewrite !Rmax_right by lra. }
    destruct O as (E1 & E2 & E3 & Hn & Hxx & Ed). fold n in Ed, Hn.
    assert (is_Some (y !! 0%nat)) as [y0 H0] by (apply lookup_lt_is_Some; fold n; lia).
    assert (is_Some (y !! 1%nat)) as [y1 H1] by (apply lookup_lt_is_Some; fold n; lia).
    pose proof (delta_pos xmin xmax n Hn Hxx) as Hd.
    rewrite (ut_cell xmin 0 y0 y1); [|done|done|rewrite node_S, node_0; lra].
    rewrite node_0, (Rminus_diag_eq xmin xmin) by done. unfold Rdiv. rewrite Rmult_0_l, Rmult_0_r, Rplus_0_r.
    by rewrite head_lookup.
  Qed.
  Lemma ut_right x : xmax <= x → ut_eval t x = last y.
  Proof using O.
    intros Hx. assert (ut_eval t x = ut_eval t xmax) as ->.
    { unfold ut_eval. destruct O as (E1 & E2 & E3 & Hn & Hxx & Ed). rewrite E1, E2.
      rewrite (Rmin_right x), (Rmin_right xmax) by lra. done. }
    destruct O as (E1 & E2 & E3 & Hn & Hxx & Ed). fold n in Ed, Hn.
    assert (is_Some (y !! (n - 2)%nat)) as [y0 H0] by (apply lookup_lt_is_Some; fold n; lia).
    assert (is_Some (y !! (n - 1)%nat)) as [y1 H1] by (apply lookup_lt_is_Some; fold n; lia).
    pose proof (delta_pos xmin xmax n Hn Hxx) as Hd.
    assert (HL : node xmin xmax n (S (n - 2)) = xmax).
    { replace (S (n - 2)) with (n - 1)%nat by lia. by apply node_last. }
    rewrite (ut_cell xmax (n - 2) y0 y1); [|done|rewrite <- H1; f_equal; lia|].
    - rewrite last_lookup. replace (pred (length y)) with (n - 1)%nat by (fold n; lia). rewrite H1. f_equal.
      rewrite node_S in HL. set (d := (xmax - xmin) / INR (n - 1)) in *.
      replace (xmax - node xmin xmax n (n - 2)) with d by lra. unfold Rdiv. rewrite Rinv_r by lra. lra.
    - rewrite HL. rewrite node_S in HL. lra.
  Qed.
End ut.

(** Lipschitz functions can be glued. *)
Definition lip (L : R) (f : R → R) (a b : R) : Prop :=
  ∀ x z, a <= x <= b → a <= z <= b → Rabs (f x - f z) <= L * Rabs (x - z).
Lemma lip_le L f a b : (∀ x z, a <= x <= z → z <= b → Rabs (f x - f z) <= L * (z - x)) → lip L f a b.
Proof.
  intros H x z Hx Hz. destruct (Rle_dec x z) as [Hle|Hgt].
  - rewrite (Rabs_minus_sym x z), (Rabs_right (z - x)) by lra. apply H; lra.
  - rewrite (Rabs_minus_sym (f x)), (Rabs_right (x - z)) by lra. apply H; lra.
Qed.
Lemma lip_glue L f a b c : a <= b <= c → lip L f a b → lip L f b c → lip L f a c.
Proof.
  intros Habc H1 H2. apply lip_le. intros x z [Hax Hxz] Hz.
  destruct (Rle_dec z b) as [Hzb|Hzb].
  - specialize (H1 x z ltac:(lra) ltac:(lra)). rewrite (Rabs_minus_sym x z), (Rabs_right (z - x)) in H1 by lra. done.
  - destruct (Rle_dec b x) as [Hbx|Hbx].
    + specialize (H2 x z ltac:(lra) ltac:(lra)). rewrite (Rabs_minus_sym x z), (Rabs_right (z - x)) in H2 by lra. done.
    + specialize (H1 x b ltac:(lra) ltac:(lra)). specialize (H2 b z ltac:(lra) ltac:(lra)).
      rewrite (Rabs_minus_sym x b), (Rabs_right (b - x)) in H1 by lra.
      rewrite (Rabs_minus_sym b z), (Rabs_right (z - b)) in H2 by lra.
      replace (f x - f z) with ((f x - f b) + (f b - f z)) by lra.
      eapply Rle_trans; [apply Rabs_triang|]. lra.
Qed.
Lemma lip_weaken L L' f a b : L <= L' → lip L f a b → lip L' f a b.
Proof. intros HL H x z Hx Hz. specialize (H x z Hx Hz). pose proof (Rabs_pos (x - z)). nra. Qed.
