(** C27: uniform tables interpolate linearly and clamp outside. *)
From Coq Require Import Reals Lra Psatz.
From Verif Require Import Base TableModel UTableProof.
Local Open Scope R_scope.

(** All tables a program can build: constructor, then changes of the domain to
    proper intervals. *)
Inductive ut_built : utable → R → R → list R → Prop :=
  | ub_make xmin xmax y t : ut_make xmin xmax y = Some t → ut_built t xmin xmax y
  | ub_rescale t xmin xmax y c d : ut_built t xmin xmax y → c < d → ut_built (ut_rescale t (c, d)) c d y.

Lemma ut_built_ok t xmin xmax y : ut_built t xmin xmax y → ut_ok t xmin xmax y.
Proof.
  induction 1 as [xmin xmax y t H|t xmin xmax y c d H IH Hcd].
  - unfold ut_make in H. destruct (Rgt_dec xmax xmin); [|done]. case_decide; [|done]. simplify_eq.
    unfold ut_ok. simpl. split_and!; try done.
  - destruct IH as (E1 & E2 & E3 & Hn & Hx & Ed). unfold ut_ok, ut_rescale. simpl. rewrite E3. done.
Qed.
(** the constructor accepts every table with two samples or more *)
Theorem C27_constructor (xmin xmax : R) (y : list R) : xmin < xmax → (1 < length y)%nat →
  ∃ t, ut_make xmin xmax y = Some t.
Proof.
  intros Hx Hn. unfold ut_make. destruct (Rgt_dec xmax xmin); [|lra]. rewrite decide_True by done. by eexists.
Qed.

Section props.
  Context (t : utable) (xmin xmax : R) (y : list R) (B : ut_built t xmin xmax y).
  Let n := length y.
  Notation xs := (node xmin xmax n).
  Local Definition F (x : R) : R := default 0 (ut_eval t x).

  (** Between two sample points, ends included, the value is the linear
      interpolant of the two samples. *)
  Theorem C27_interpolant x i y0 y1 : y !! i = Some y0 → y !! S i = Some y1 → xs i <= x <= xs (S i) →
    ut_eval t x = Some (y0 + (y1 - y0) * ((x - xs i) / (xs (S i) - xs i))).
  Proof using B.
    intros H0 H1 Hx. rewrite (ut_cell t xmin xmax y (ut_built_ok _ _ _ _ B) x i y0 y1 H0 H1 Hx).
    fold n. do 3 f_equal. rewrite node_S. f_equal. lra.
  Qed.

  Theorem C27_nodes i v : y !! i = Some v → ut_eval t (xs i) = Some v.
  Proof using B.
    intros Hv. pose proof (ut_built_ok _ _ _ _ B) as O. pose proof O as (_ & _ & _ & Hn & Hx & _). fold n in Hn.
    pose proof (delta_pos xmin xmax n Hn Hx) as Hd. apply lookup_lt_Some in Hv as Hi. fold n in Hi.
    destruct (decide (S i < n)%nat) as [Hs|Hs].
    - assert (is_Some (y !! S i)) as [y1 H1] by (by apply lookup_lt_is_Some).
      rewrite (C27_interpolant (xs i) i v y1) by (done || rewrite node_S; lra). f_equal.
      rewrite (Rminus_diag_eq (xs i) (xs i)) by done. unfold Rdiv. lra.
    - destruct i as [|i]; [lia|].
      assert (is_Some (y !! i)) as [y0 H0] by (apply lookup_lt_is_Some; fold n; lia).
      rewrite (C27_interpolant (xs (S i)) i y0 v) by (done || rewrite node_S; lra). f_equal.
      rewrite node_S. replace (xs i + (xmax - xmin) / INR (n - 1) - xs i) with ((xmax - xmin) / INR (n - 1)) by lra.
      unfold Rdiv at 1. rewrite Rinv_r by lra. lra.
  Qed.

  (** Outside of the domain the end samples are returned. *)
  Theorem C27_outside x : (x <= xmin → ut_eval t x = head y) ∧ (xmax <= x → ut_eval t x = last y).
  Proof using B.
    pose proof (ut_built_ok _ _ _ _ B) as O. split; [by apply (ut_left _ xmin xmax)|by apply (ut_right _ xmin xmax)].
  Qed.

  (** The value always lies between two neighbouring samples (so the look-up
      never leaves the table). *)
  Theorem C27_between x : ∃ v i y0 y1, ut_eval t x = Some v ∧ y !! i = Some y0 ∧ y !! S i = Some y1 ∧
    Rmin y0 y1 <= v <= Rmax y0 y1 ∧ (xmin <= x <= xmax → xs i <= x <= xs (S i)).
  Proof using B.
    pose proof (ut_built_ok _ _ _ _ B) as O. pose proof O as (_ & _ & _ & Hn & Hx & _). fold n in Hn.
    pose proof (delta_pos xmin xmax n Hn Hx) as Hd.
    assert (Hin : ∀ x', xmin <= x' <= xmax → ∃ v i y0 y1, ut_eval t x' = Some v ∧ y !! i = Some y0 ∧ y !! S i = Some y1 ∧
      Rmin y0 y1 <= v <= Rmax y0 y1 ∧ xs i <= x' <= xs (S i)).
    { intros x' Hx'. destruct (cell_of t xmin xmax y O x' Hx') as (i & Hi & Hc). fold n in Hi, Hc.
      assert (is_Some (y !! i)) as [y0 H0] by (apply lookup_lt_is_Some; fold n; lia).
      assert (is_Some (y !! S i)) as [y1 H1] by (apply lookup_lt_is_Some; fold n; lia).
      eexists _, i, y0, y1. split; [by apply (C27_interpolant x' i y0 y1)|]. split_and!; try done; try lra.
      - set (w := (x' - xs i) / (xs (S i) - xs i)). assert (0 <= w <= 1) as Hw.
        { unfold w. rewrite node_S in Hc |- *. set (d := (xmax - xmin) / INR (n - 1)) in *.
          replace (xs i + d - xs i) with d by lra. split.
          - apply Rmult_le_reg_r with d; [done|]. unfold Rdiv. rewrite Rmult_assoc, Rinv_l by lra. lra.
          - apply Rmult_le_reg_r with d; [done|]. unfold Rdiv. rewrite Rmult_assoc, Rinv_l by lra. lra. }
        unfold Rmin. destruct (Rle_dec y0 y1); nra.
      - set (w := (x' - xs i) / (xs (S i) - xs i)). assert (0 <= w <= 1) as Hw.
        { unfold w. rewrite node_S in Hc |- *. set (d := (xmax - xmin) / INR (n - 1)) in *.
          replace (xs i + d - xs i) with d by lra. split.
          - apply Rmult_le_reg_r with d; [done|]. unfold Rdiv. rewrite Rmult_assoc, Rinv_l by lra. lra.
          - apply Rmult_le_reg_r with d; [done|]. unfold Rdiv. rewrite Rmult_assoc, Rinv_l by lra. lra. }
        unfold Rmax. destruct (Rle_dec y0 y1); nra. }
    destruct (Rle_dec x xmin) as [Hl|Hl]; [|destruct (Rle_dec xmax x) as [Hr|Hr]].
    - destruct (Hin xmin ltac:(lra)) as (v & i & y0 & y1 & E & H0 & H1 & Hv & Hc).
      exists v, i, y0, y1. rewrite (proj1 (C27_outside x)) by done. rewrite (proj1 (C27_outside xmin)) in E by lra.
      split_and!; try done; try lra.
    - destruct (Hin xmax ltac:(lra)) as (v & i & y0 & y1 & E & H0 & H1 & Hv & Hc).
      exists v, i, y0, y1. rewrite (proj2 (C27_outside x)) by done. rewrite (proj2 (C27_outside xmax)) in E by lra.
      split_and!; try done; try lra.
    - destruct (Hin x ltac:(lra)) as (v & i & y0 & y1 & E & H0 & H1 & Hv & Hc).
      exists v, i, y0, y1. split_and!; try done; lra.
  Qed.

  (** The function is Lipschitz continuous on the whole line. *)
  Theorem C27_continuous : ∃ L, ∀ x z, Rabs (F x - F z) <= L * Rabs (x - z).
  Proof using B.
    pose proof (ut_built_ok _ _ _ _ B) as O. pose proof O as (E1 & E2 & _ & Hn & Hx & _). fold n in Hn.
    pose proof (delta_pos xmin xmax n Hn Hx) as Hd.
    assert (∀ m, (m <= n - 1)%nat → ∃ L, 0 <= L ∧ lip L F xmin (xs m)) as H.
    { induction m as [|m IH]; intros Hm.
      - exists 0. split; [lra|]. rewrite node_0. intros x z Hx1 Hz1. assert (x = z) as -> by lra.
        rewrite Rminus_diag_eq by done. rewrite Rabs_R0. lra.
      - destruct IH as (L & HL & Hlip); [lia|].
        assert (is_Some (y !! m)) as [y0 H0] by (apply lookup_lt_is_Some; fold n; lia).
        assert (is_Some (y !! S m)) as [y1 H1] by (apply lookup_lt_is_Some; fold n; lia).
        set (s := (y1 - y0) / (xs (S m) - xs m)).
        exists (L + Rabs s). pose proof (Rabs_pos s). split; [lra|].
        apply (lip_glue _ _ _ (xs m)).
        + split; [|rewrite node_S; lra]. pose proof (node_le xmin xmax n 0 m Hn Hx ltac:(lia)) as HH. rewrite node_0 in HH. done.
        + eapply lip_weaken; [|exact Hlip]. lra.
        + apply (lip_weaken (Rabs s)); [lra|]. intros x z Hx1 Hz1. unfold F.
          rewrite (C27_interpolant x m y0 y1 H0 H1 Hx1), (C27_interpolant z m y0 y1 H0 H1 Hz1). cbn [default from_option Datatypes.id].
          rewrite <- Rabs_mult. right. f_equal. unfold s. rewrite node_S.
          clear -Hd. revert Hd. generalize ((xmax - xmin) / INR (n - 1)), (xs m). intros d xm Hd. field. lra. }
    destruct (H (n - 1)%nat) as (L & HL & Hlip); [lia|]. rewrite node_last in Hlip by done.
    exists L. intros x z. set (cl := λ x, Rmax (Rmin x xmax) xmin).
    assert (Hcl : ∀ x, F x = F (cl x)).
    { intros x'. unfold F, ut_eval, cl. rewrite E1, E2. do 2 f_equal.
      unfold Rmax, Rmin. repeat destruct (Rle_dec _ _); try lra; try done. }
    assert (Hcr : ∀ x, xmin <= cl x <= xmax).
    { intros x'. unfold cl, Rmax, Rmin. repeat destruct (Rle_dec _ _); lra. }
    rewrite (Hcl x), (Hcl z). eapply Rle_trans; [by apply Hlip; apply Hcr|].
    apply Rmult_le_compat_l; [done|]. unfold cl, Rmax, Rmin, Rabs.
    repeat destruct (Rle_dec _ _); repeat destruct (Rcase_abs _); lra.
  Qed.
  Theorem C27_continuity : continuity F.
  Proof using B.
    destruct C27_continuous as (L & HL). intros x0 eps Heps.
    set (M := Rmax L 1). assert (L <= M) by apply Rmax_l. assert (1 <= M) by apply Rmax_r.
    exists (eps / M). split; [apply Rdiv_lt_0_compat; lra|]. intros x [_ Hd]. simpl in Hd |- *. unfold R_dist in *.
    eapply Rle_lt_trans; [apply HL|].
    apply Rle_lt_trans with (M * Rabs (x - x0)); [apply Rmult_le_compat_r; [apply Rabs_pos|done]|].
    apply Rmult_lt_reg_l with (/ M); [apply Rinv_0_lt_compat; lra|].
    rewrite <- Rmult_assoc, Rinv_l, Rmult_1_l by lra. unfold Rdiv in Hd. lra.
  Qed.

  (** derivative returns the slope of the cell ... *)
  Theorem C27_slope x i y0 y1 : y !! i = Some y0 → y !! S i = Some y1 →
    xs i <= x < xs (S i) ∨ (S (S i) = n ∧ x = xmax) →
    ut_derivative t x = Some ((y1 - y0) / (xs (S i) - xs i)).
  Proof using B.
    intros H0 H1 Hc. pose proof (ut_built_ok _ _ _ _ B) as O.
    pose proof O as (E1 & E2 & E3 & Hn & Hx & Ed). fold n in Hn, Ed.
    pose proof (delta_pos xmin xmax n Hn Hx) as Hd. assert (S i < n)%nat as Hi by (by eapply lookup_lt_Some).
    assert (Hc' : xs i <= x <= xs (S i)).
    { destruct Hc as [?|[Hl ->]]; [lra|]. replace (S i) with (n - 1)%nat by lia. rewrite node_last by done.
      split; [|lra]. pose proof (node_le xmin xmax n i (n - 1) Hn Hx ltac:(lia)) as HH. rewrite node_last in HH by done. done. }
    destruct (ut_pos t xmin xmax y O x i Hc' Hi) as (Hr & Hdn & p & Hp & Hpi & Hw).
    unfold ut_derivative. destruct (Rgt_dec x (ut_xmax t)) as [?|_]; [lra|].
    destruct (Rlt_dec x (ut_xmin t)) as [?|_]; [lra|].
    rewrite (clamp_id t xmin xmax y O) by done. rewrite E1, E3. fold n. rewrite rdiv_Some by done.
    cbn [mbind option_bind]. rewrite <- Hp.
    assert (HL : (if decide (Int_part p = Z.of_nat n - 1)%Z then (Int_part p - 1)%Z else Int_part p) = Z.of_nat i).
    { destruct Hc as [Hc|[Hl Hxm]].
      - assert (p < INR i + 1).
        { assert (p - INR i < 1); [|lra]. rewrite Hw. fold n. rewrite Ed. rewrite node_S in Hc.
          set (d := (xmax - xmin) / INR (n - 1)) in *. apply Rmult_lt_reg_r with d; [done|].
          unfold Rdiv. rewrite Rmult_assoc, Rinv_l by lra. lra. }
        rewrite (Int_part_nat p i) by lra. rewrite decide_False by lia. done.
      - assert (p = INR i + 1) as ->.
        { assert (p - INR i = 1); [|lra]. rewrite Hw. fold n. rewrite Ed, Hxm.
          rewrite <- (node_last xmin xmax n Hn) at 1. replace (n - 1)%nat with (S i) by lia.
          replace (INR (S i)) with (INR (n - 1)) by (f_equal; lia).
          rewrite node_S. set (d := (xmax - xmin) / INR (n - 1)) in *.
          replace (xs i + d - xs i) with d by lra. unfold Rdiv. rewrite Rinv_r by lra. done. }
        rewrite (Int_part_nat _ (S i)) by (rewrite S_INR; lra). rewrite decide_True by lia. lia. }
    rewrite HL. replace (Z.of_nat i + 1)%Z with (Z.of_nat (S i)) by lia. rewrite !at_int_nat, H1, H0.
    cbn [mbind option_bind]. rewrite rdiv_Some by done. rewrite Ed, node_S. do 2 f_equal. lra.
  Qed.
  (** ... which is the derivative of the interpolant wherever it has one by
      construction: inside the cells and outside of the domain. *)
  Theorem C27_derivative x :
    (∃ i, (S i < n)%nat ∧ xs i < x < xs (S i)) ∨ x < xmin ∨ xmax < x →
    ∃ v, ut_derivative t x = Some v ∧ derivable_pt_lim F x v.
  Proof using B.
    intros Hc. pose proof (ut_built_ok _ _ _ _ B) as O.
    pose proof O as (E1 & E2 & E3 & Hn & Hx & Ed). fold n in Hn, Ed.
    pose proof (delta_pos xmin xmax n Hn Hx) as Hd.
    assert (Hloc : ∀ a b s c, a < x < b → (∀ z, a < z < b → F z = c + s * z) → derivable_pt_lim F x s).
    { intros a b s c Hab Hf eps Heps.
      assert (0 < Rmin (x - a) (b - x)) as Hdel by (apply Rmin_pos; lra).
      exists (mkposreal _ Hdel). intros h Hh Hlt. simpl in Hlt.
      pose proof (Rmin_l (x - a) (b - x)). pose proof (Rmin_r (x - a) (b - x)).
      apply Rabs_def2 in Hlt. rewrite (Hf x) by done. rewrite (Hf (x + h)) by lra.
      replace ((c + s * (x + h) - (c + s * x)) / h - s) with 0 by (field; done). rewrite Rabs_R0. done. }
    destruct Hc as [(i & Hi & Hc)|[Hc|Hc]].
    - assert (is_Some (y !! i)) as [y0 H0] by (apply lookup_lt_is_Some; fold n; lia).
      assert (is_Some (y !! S i)) as [y1 H1] by (apply lookup_lt_is_Some; fold n; lia).
      eexists. split; [apply (C27_slope x i y0 y1 H0 H1); left; lra|].
      set (s := (y1 - y0) / (xs (S i) - xs i)).
      apply (Hloc (xs i) (xs (S i)) s (y0 - s * xs i) Hc). intros z Hz. unfold F.
      rewrite (C27_interpolant z i y0 y1) by (done || lra). cbn [default from_option Datatypes.id]. unfold s. rewrite node_S.
      clear -Hd. revert Hd. generalize ((xmax - xmin) / INR (n - 1)), (xs i). intros d xm Hd. field. lra.
    - exists 0. split.
      + unfold ut_derivative. destruct (Rgt_dec x (ut_xmax t)); [done|]. destruct (Rlt_dec x (ut_xmin t)); [done|lra].
      + apply (Hloc (x - 1) xmin 0 (default 0 (head y))); [lra|]. intros z Hz. unfold F.
        rewrite (proj1 (C27_outside z)) by lra. lra.
    - exists 0. split.
      + unfold ut_derivative. destruct (Rgt_dec x (ut_xmax t)); [done|]. lra.
      + apply (Hloc xmax (x + 1) 0 (default 0 (last y))); [lra|]. intros z Hz. unfold F.
        rewrite (proj2 (C27_outside z)) by lra. lra.
  Qed.
End props.

(** ** Non-vacuity: three samples 0, 2, 1 on [0, 2] *)
Example C27_example : ∃ t, ut_make 0 2 [0; 2; 1] = Some t ∧
  ut_eval t (1/2) = Some 1 ∧ ut_eval t 1 = Some 2 ∧ ut_eval t (3/2) = Some (3/2) ∧ ut_eval t 7 = Some 1 ∧
  ut_derivative t (3/2) = Some (-1).
Proof.
  destruct (C27_constructor 0 2 [0; 2; 1]) as [t Ht]; [lra|simpl; lia|]. exists t. split; [done|].
  assert (ut_built t 0 2 [0; 2; 1]) as B by (by constructor).
  assert (N0 : node 0 2 3 0 = 0) by (unfold node; simpl; lra).
  assert (N1 : node 0 2 3 1 = 1) by (unfold node; simpl; lra).
  assert (N2 : node 0 2 3 2 = 2) by (unfold node; simpl; lra).
  split_and!.
  - rewrite (C27_interpolant t 0 2 _ B (1/2) 0 0 2 eq_refl eq_refl); simpl length; rewrite N0, N1; [f_equal|]; lra.
  - rewrite (C27_interpolant t 0 2 _ B 1 0 0 2 eq_refl eq_refl); simpl length; rewrite N0, N1; [f_equal|]; lra.
  - rewrite (C27_interpolant t 0 2 _ B (3/2) 1 2 1 eq_refl eq_refl); simpl length; rewrite N1, N2; [f_equal|]; lra.
  - rewrite (proj2 (C27_outside t 0 2 _ B 7)); [done|lra].
  - rewrite (C27_slope t 0 2 _ B (3/2) 1 2 1 eq_refl eq_refl); simpl length; rewrite N1, N2; [f_equal; lra|left; lra].
Qed.

Print Assumptions C27_constructor.
Print Assumptions C27_interpolant.
Print Assumptions C27_nodes.
Print Assumptions C27_outside.
Print Assumptions C27_between.
Print Assumptions C27_continuous.
Print Assumptions C27_continuity.
Print Assumptions C27_slope.
Print Assumptions C27_derivative.
