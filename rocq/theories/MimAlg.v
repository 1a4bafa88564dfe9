(** C61: the properties of the matrix. *)
From Coq Require Import Reals Lra Psatz.
From Verif Require Import Base AccProof TofSpec TofProof MimSpec.
Unset Default Proof Using.
Local Open Scope R_scope.

Lemma sum_ext n f g : (∀ i, (i < n)%nat → f i = g i) → sum n f = sum n g.
Proof. intros H. apply rsum_ext. intros i Hi. apply elem_of_seq in Hi. apply H. lia. Qed.
Lemma sum_plus n f g : sum n (λ i, f i + g i) = sum n f + sum n g.
Proof. apply rsum_plus. Qed.
Lemma sum_scale n a f : sum n (λ i, a * f i) = a * sum n f.
Proof. apply rsum_scale. Qed.
Lemma sum_scale_r n a f : sum n (λ i, f i * a) = sum n f * a.
Proof. rewrite Rmult_comm, <- sum_scale. apply sum_ext. intros. ring. Qed.
Lemma sum_minus n f g : sum n (λ i, f i - g i) = sum n f - sum n g.
Proof. unfold Rminus. rewrite sum_plus. f_equal. apply rsum_opp. Qed.
Lemma sum_swap n m f : sum n (λ i, sum m (f i)) = sum m (λ j, sum n (λ i, f i j)).
Proof. apply rsum_swap. Qed.
Lemma sum_zero n f : (∀ i, (i < n)%nat → f i = 0) → sum n f = 0.
Proof. intros H. apply rsum_zero. intros i Hi. apply elem_of_seq in Hi. apply H. lia. Qed.
Lemma sum_nonneg n f : (∀ i, (i < n)%nat → 0 <= f i) → 0 <= sum n f.
Proof. intros H. apply rsum_nonneg. intros i Hi. apply elem_of_seq in Hi. apply H. lia. Qed.
Lemma sum_pick n k f : (k < n)%nat → sum n (λ i, f i * unit_entry i k) = f k.
Proof.
  intros Hk. unfold sum, unit_entry. rewrite (rsum_ext _ (λ i, if decide (i = k) then f i else 0)); [apply rsum_single; [apply NoDup_seq|apply elem_of_seq; lia]|].
  intros i _. destruct (decide (i = k)); ring.
Qed.
Lemma unit_sym k l : unit_entry k l = unit_entry l k.
Proof. unfold unit_entry. destruct (decide (k = l)), (decide (l = k)); congruence. Qed.
Lemma sum_pick_l n k f : (k < n)%nat → sum n (λ i, f i * unit_entry k i) = f k.
Proof. intros Hk. rewrite <- (sum_pick n k f Hk). apply sum_ext. intros. by rewrite unit_sym. Qed.
Lemma sum_S n f : sum (S n) f = sum n f + f n.
Proof. unfold sum. rewrite seq_S, rsum_app. cbn [rsum]. rewrite Nat.add_0_l. lra. Qed.
Lemma sum_squares n f : sum n (λ i, f i * f i) = 0 → ∀ i, (i < n)%nat → f i = 0.
Proof.
  induction n as [|n IH]; intros H i Hi; [lia|]. rewrite sum_S in H. assert (0 <= sum n (λ i, f i * f i)) by (apply sum_nonneg; intros; nra).
  assert (0 <= f n * f n) by nra. destruct (decide (i = n)) as [->|]; [nra|]. apply IH; [lra|lia].
Qed.

Lemma zero_or n (f : nat → R) : (∀ k, (k < n)%nat → f k = 0) ∨ ∃ k, (k < n)%nat ∧ f k ≠ 0.
Proof.
  induction n as [|n [IH|(k & Hk & Hf)]]; [left; intros; lia| |right; exists k; split; [lia|done]].
  destruct (Req_EM_T (f n) 0) as [H|H]; [|right; exists n; split; [lia|done]]. left. intros k Hk. destruct (decide (k = n)) as [->|]; [done|]. apply IH. lia.
Qed.
(** A square matrix with a right inverse has no kernel; up to three dimensions. *)
Lemma no_kernel d (L T : nat → nat → R) q : (d ≤ 3)%nat → (∀ k l, (k < d)%nat → (l < d)%nat → sum d (λ m, L k m * T m l) = unit_entry k l) →
  (∀ k, (k < d)%nat → sum d (λ m, L k m * q m) = 0) → ∀ k, (k < d)%nat → q k = 0.
Proof.
  intros Hd HI Hq. destruct d as [|[|[|[|d]]]]; [intros; lia| | | |lia].
  - intros k Hk. replace k with 0%nat by lia. pose proof (HI 0 0 ltac:(lia) ltac:(lia))%nat as H1. pose proof (Hq 0%nat ltac:(lia)) as H2. unfold sum in *. cbn in H1, H2. unfold unit_entry in H1. rewrite decide_True in H1 by done.
    transitivity (q 0%nat * (L 0%nat 0%nat * T 0%nat 0%nat + 0)); [rewrite H1; ring|]. transitivity ((L 0%nat 0%nat * q 0%nat + 0) * T 0%nat 0%nat); [ring|]. rewrite H2. ring.
  - assert (I00 := HI 0%nat 0%nat ltac:(lia) ltac:(lia)). assert (I01 := HI 0%nat 1%nat ltac:(lia) ltac:(lia)). assert (I10 := HI 1%nat 0%nat ltac:(lia) ltac:(lia)). assert (I11 := HI 1%nat 1%nat ltac:(lia) ltac:(lia)).
    assert (Q0 := Hq 0%nat ltac:(lia)). assert (Q1 := Hq 1%nat ltac:(lia)). clear HI Hq. change (unit_entry 0 0) with 1 in I00. change (unit_entry 0 1) with 0 in I01. change (unit_entry 1 0) with 0 in I10. change (unit_entry 1 1) with 1 in I11. unfold sum in *. cbn [rsum seq] in *.
    set (a := L 0%nat 0%nat) in *. set (b := L 0%nat 1%nat) in *. set (c := L 1%nat 0%nat) in *. set (e := L 1%nat 1%nat) in *.
    assert (HD : (a * e - b * c) * (T 0%nat 0%nat * T 1%nat 1%nat - T 0%nat 1%nat * T 1%nat 0%nat) = 1).
    { transitivity ((a * T 0%nat 0%nat + (b * T 1%nat 0%nat + 0)) * (c * T 0%nat 1%nat + (e * T 1%nat 1%nat + 0)) - (a * T 0%nat 1%nat + (b * T 1%nat 1%nat + 0)) * (c * T 0%nat 0%nat + (e * T 1%nat 0%nat + 0))); [ring|]. rewrite I00, I01, I10, I11. ring. }
    assert (D0 : (a * e - b * c) * q 0%nat = 0) by (transitivity (e * (a * q 0%nat + (b * q 1%nat + 0)) - b * (c * q 0%nat + (e * q 1%nat + 0))); [ring|rewrite Q0, Q1; ring]).
    assert (D1 : (a * e - b * c) * q 1%nat = 0) by (transitivity (a * (c * q 0%nat + (e * q 1%nat + 0)) - c * (a * q 0%nat + (b * q 1%nat + 0))); [ring|rewrite Q0, Q1; ring]).
    assert (a * e - b * c ≠ 0) by (intros H0; rewrite H0 in HD; lra).
    intros k Hk. destruct k as [|[|k]]; [apply Rmult_integral in D0 as [?|?]; done|apply Rmult_integral in D1 as [?|?]; done|lia].
  - assert (I : ∀ k l, (k < 3)%nat → (l < 3)%nat → L k 0%nat * T 0%nat l + (L k 1%nat * T 1%nat l + (L k 2%nat * T 2%nat l + 0)) = unit_entry k l) by exact HI.
    assert (Q : ∀ k, (k < 3)%nat → L k 0%nat * q 0%nat + (L k 1%nat * q 1%nat + (L k 2%nat * q 2%nat + 0)) = 0) by exact Hq.
    pose proof (I 0 0 ltac:(lia) ltac:(lia))%nat as I00. pose proof (I 0 1 ltac:(lia) ltac:(lia))%nat as I01. pose proof (I 0 2 ltac:(lia) ltac:(lia))%nat as I02.
    pose proof (I 1 0 ltac:(lia) ltac:(lia))%nat as I10. pose proof (I 1 1 ltac:(lia) ltac:(lia))%nat as I11. pose proof (I 1 2 ltac:(lia) ltac:(lia))%nat as I12.
    pose proof (I 2 0 ltac:(lia) ltac:(lia))%nat as I20. pose proof (I 2 1 ltac:(lia) ltac:(lia))%nat as I21. pose proof (I 2 2 ltac:(lia) ltac:(lia))%nat as I22.
    pose proof (Q 0 ltac:(lia))%nat as Q0. pose proof (Q 1 ltac:(lia))%nat as Q1. pose proof (Q 2 ltac:(lia))%nat as Q2.
    clear HI Hq I Q. change (unit_entry 0 0) with 1 in I00. change (unit_entry 0 1) with 0 in I01. change (unit_entry 0 2) with 0 in I02. change (unit_entry 1 0) with 0 in I10. change (unit_entry 1 1) with 1 in I11. change (unit_entry 1 2) with 0 in I12. change (unit_entry 2 0) with 0 in I20. change (unit_entry 2 1) with 0 in I21. change (unit_entry 2 2) with 1 in I22.
    set (a := L 0%nat 0%nat) in *. set (b := L 0%nat 1%nat) in *. set (c := L 0%nat 2%nat) in *.
    set (e := L 1%nat 0%nat) in *. set (f := L 1%nat 1%nat) in *. set (g := L 1%nat 2%nat) in *.
    set (h := L 2%nat 0%nat) in *. set (i := L 2%nat 1%nat) in *. set (j := L 2%nat 2%nat) in *.
    set (a' := T 0%nat 0%nat) in *. set (b' := T 0%nat 1%nat) in *. set (c' := T 0%nat 2%nat) in *.
    set (e' := T 1%nat 0%nat) in *. set (f' := T 1%nat 1%nat) in *. set (g' := T 1%nat 2%nat) in *.
    set (h' := T 2%nat 0%nat) in *. set (i' := T 2%nat 1%nat) in *. set (j' := T 2%nat 2%nat) in *.
    set (D := a * (f * j - g * i) - b * (e * j - g * h) + c * (e * i - f * h)).
    assert (HD : D * (a' * (f' * j' - g' * i') - b' * (e' * j' - g' * h') + c' * (e' * i' - f' * h')) = 1).
    { transitivity ((a * a' + (b * e' + (c * h' + 0))) * ((e * b' + (f * f' + (g * i' + 0))) * (h * c' + (i * g' + (j * j' + 0))) - (e * c' + (f * g' + (g * j' + 0))) * (h * b' + (i * f' + (j * i' + 0))))
        - (a * b' + (b * f' + (c * i' + 0))) * ((e * a' + (f * e' + (g * h' + 0))) * (h * c' + (i * g' + (j * j' + 0))) - (e * c' + (f * g' + (g * j' + 0))) * (h * a' + (i * e' + (j * h' + 0))))
        + (a * c' + (b * g' + (c * j' + 0))) * ((e * a' + (f * e' + (g * h' + 0))) * (h * b' + (i * f' + (j * i' + 0))) - (e * b' + (f * f' + (g * i' + 0))) * (h * a' + (i * e' + (j * h' + 0)))));
      [unfold D; ring|]. rewrite I00, I01, I02, I10, I11, I12, I20, I21, I22. ring. }
    assert (D ≠ 0) by (intros H0; rewrite H0 in HD; lra).
    assert (D0 : D * q 0%nat = 0).
    { transitivity ((f * j - g * i) * (a * q 0%nat + (b * q 1%nat + (c * q 2%nat + 0))) - (b * j - c * i) * (e * q 0%nat + (f * q 1%nat + (g * q 2%nat + 0))) + (b * g - c * f) * (h * q 0%nat + (i * q 1%nat + (j * q 2%nat + 0)))); [unfold D; ring|rewrite Q0, Q1, Q2; ring]. }
    assert (D1 : D * q 1%nat = 0).
    { transitivity (- (e * j - g * h) * (a * q 0%nat + (b * q 1%nat + (c * q 2%nat + 0))) + (a * j - c * h) * (e * q 0%nat + (f * q 1%nat + (g * q 2%nat + 0))) - (a * g - c * e) * (h * q 0%nat + (i * q 1%nat + (j * q 2%nat + 0)))); [unfold D; ring|rewrite Q0, Q1, Q2; ring]. }
    assert (D2 : D * q 2%nat = 0).
    { transitivity ((e * i - f * h) * (a * q 0%nat + (b * q 1%nat + (c * q 2%nat + 0))) - (a * i - b * h) * (e * q 0%nat + (f * q 1%nat + (g * q 2%nat + 0))) + (a * f - b * e) * (h * q 0%nat + (i * q 1%nat + (j * q 2%nat + 0)))); [unfold D; ring|rewrite Q0, Q1, Q2; ring]. }
    intros k Hk. destruct k as [|[|[|k]]]; [apply Rmult_integral in D0 as [?|?]; done|apply Rmult_integral in D1 as [?|?]; done|apply Rmult_integral in D2 as [?|?]; done|lia].
Qed.

Section algebra.
Variables (n d : nat) (vol : R) (N K C Q : nat → nat → R) (A : nat → R).
Hypothesis Hd : (0 < d)%nat.
Notation B := (mimetic n d vol N K Q A).
Notation c := (6 * (sum d (λ k, K k k) / INR d) / vol).

Lemma mimetic_symmetric : symmetric d K → symmetric n B.
Proof.
  clear Hd. intros HK i j _ _. unfold mimetic. f_equal.
  - f_equal. rewrite sum_swap. apply sum_ext. intros l Hl. apply sum_ext. intros k Hk. rewrite (HK k l Hk Hl). ring.
  - rewrite (unit_sym i j). f_equal. assert (sum d (λ k, Q i k * Q j k) = sum d (λ k, Q j k * Q i k)) as -> by (apply sum_ext; intros; ring). ring.
Qed.
(** The projection. *)
Lemma project (w : nat → R) i : sum n (λ j, (unit_entry i j - sum d (λ k, Q i k * Q j k)) * w j) = sum n (λ j, w j * unit_entry i j) - sum d (λ k, Q i k * sum n (λ j, Q j k * w j)).
Proof.
  clear Hd. rewrite (sum_ext n _ (λ j, w j * unit_entry i j - sum d (λ k, Q i k * Q j k) * w j)) by (intros; ring). rewrite sum_minus. f_equal.
  rewrite (sum_ext n (λ j, sum d (λ k, Q i k * Q j k) * w j) (λ j, sum d (λ k, Q i k * Q j k * w j))) by (intros; by rewrite sum_scale_r).
  rewrite sum_swap. apply sum_ext. intros k _. rewrite <- sum_scale. apply sum_ext. intros. ring.
Qed.
Lemma quad_project (w : nat → R) : orthonormal n d Q → sum n (λ i, w i * sum n (λ j, (unit_entry i j - sum d (λ k, Q i k * Q j k)) * w j)) =
  sum n (λ i, (w i - sum d (λ k, Q i k * sum n (λ j, Q j k * w j))) * (w i - sum d (λ k, Q i k * sum n (λ j, Q j k * w j)))).
Proof.
  clear Hd. intros HQ. set (q := λ k, sum n (λ j, Q j k * w j)).
  transitivity (sum n (λ i, (w i - sum d (λ k, Q i k * q k)) * (w i - sum d (λ k, Q i k * q k)))); [|done].
  rewrite (sum_ext n _ (λ i, w i * w i - w i * sum d (λ k, Q i k * q k))).
  2:{ intros i Hi. rewrite project. rewrite (sum_pick_l n i w Hi). change (sum d (λ k, Q i k * sum n (λ j, Q j k * w j))) with (sum d (λ k, Q i k * q k)). ring. }
  rewrite (sum_ext n (λ i, (w i - sum d (λ k, Q i k * q k)) * (w i - sum d (λ k, Q i k * q k))) (λ i, (w i * w i - w i * sum d (λ k, Q i k * q k)) + (sum d (λ k, Q i k * q k) * sum d (λ k, Q i k * q k) - w i * sum d (λ k, Q i k * q k)))) by (intros; ring).
  rewrite sum_plus. assert (E : sum n (λ i, sum d (λ k, Q i k * q k) * sum d (λ k, Q i k * q k) - w i * sum d (λ k, Q i k * q k)) = 0); [|rewrite E; ring].
  rewrite sum_minus. assert (E1 : sum n (λ i, w i * sum d (λ k, Q i k * q k)) = sum d (λ k, q k * q k)).
  { rewrite (sum_ext n _ (λ i, sum d (λ k, w i * (Q i k * q k)))) by (intros; by rewrite sum_scale). rewrite sum_swap. apply sum_ext. intros k _. transitivity (q k * sum n (λ j, Q j k * w j)); [|done]. rewrite <- sum_scale. apply sum_ext. intros. ring. }
  rewrite E1. assert (E2 : sum n (λ i, sum d (λ k, Q i k * q k) * sum d (λ k, Q i k * q k)) = sum d (λ k, q k * q k)); [|lra].
  rewrite (sum_ext n _ (λ i, sum d (λ k, sum d (λ l, (Q i k * Q i l) * (q k * q l))))).
  2:{ intros i _. rewrite <- sum_scale_r. apply sum_ext. intros k _. rewrite <- sum_scale. apply sum_ext. intros. ring. }
  rewrite sum_swap. apply sum_ext. intros k Hk. rewrite sum_swap. rewrite (sum_ext d _ (λ l, q k * q l * unit_entry k l)).
  - by rewrite (sum_pick_l d k (λ l, q k * q l) Hk).
  - intros l Hl. rewrite sum_scale_r. rewrite (HQ k l Hk Hl). ring.
Qed.
Lemma quad_mimetic x : quad n B x = quad d K (λ k, sum n (λ i, N i k * x i)) / vol + c * sum n (λ i, A i * x i * sum n (λ j, (unit_entry i j - sum d (λ k, Q i k * Q j k)) * (A j * x j))).
Proof.
  clear Hd. unfold quad, mimetic. set (cc := c).
  rewrite (sum_ext n _ (λ i, / vol * sum n (λ j, sum d (λ k, sum d (λ l, (N i k * x i) * K k l * (N j l * x j)))) + cc * (A i * x i * sum n (λ j, (unit_entry i j - sum d (λ k, Q i k * Q j k)) * (A j * x j))))).
  2:{ intros i _. rewrite (sum_ext n _ (λ j, / vol * sum d (λ k, sum d (λ l, (N i k * x i) * K k l * (N j l * x j))) + cc * (A i * x i * ((unit_entry i j - sum d (λ k, Q i k * Q j k)) * (A j * x j))))).
      2:{ intros j _. rewrite (sum_ext d (λ k, sum d (λ l, N i k * x i * K k l * (N j l * x j))) (λ k, x i * x j * sum d (λ l, N i k * K k l * N j l))).
          2:{ intros k _. rewrite <- sum_scale. apply sum_ext. intros. ring. }
          rewrite sum_scale. unfold Rdiv. ring. }
      rewrite sum_plus, !sum_scale. ring. }
  rewrite sum_plus, !sum_scale. f_equal. unfold Rdiv. rewrite Rmult_comm. f_equal.
  rewrite (sum_ext n _ (λ i, sum d (λ k, sum d (λ l, N i k * x i * K k l * sum n (λ j, N j l * x j))))).
  - rewrite sum_swap. apply sum_ext. intros k _. rewrite sum_swap. apply sum_ext. intros l _. rewrite <- !sum_scale_r. apply sum_ext. intros. ring.
  - intros i _. rewrite sum_swap. apply sum_ext. intros k _. rewrite sum_swap. apply sum_ext. intros l _. by rewrite sum_scale.
Qed.
Lemma trace_nonneg : nonnegative d K → 0 <= sum d (λ k, K k k).
Proof.
  clear Hd. intros HK. apply sum_nonneg. intros k Hk. pose proof (HK (λ i, unit_entry i k)) as H. unfold quad in H.
  rewrite (sum_ext d _ (λ i, K i k * unit_entry i k)) in H; [by rewrite (sum_pick d k (λ i, K i k) Hk) in H|].
  intros i _. rewrite (sum_pick d k (λ j, unit_entry i k * K i j) Hk). ring.
Qed.
Lemma trace_pos : definite d K → 0 < sum d (λ k, K k k).
Proof.
  intros HK. assert (HP : ∀ k, (k < d)%nat → 0 < K k k).
  { intros k Hk. pose proof (HK (λ i, unit_entry i k)) as H. unfold quad in H. rewrite (sum_ext d _ (λ i, K i k * unit_entry i k)) in H.
    - rewrite (sum_pick d k (λ i, K i k) Hk) in H. apply H. exists k. split; [done|]. unfold unit_entry. rewrite decide_True by done. lra.
    - intros i _. rewrite (sum_pick d k (λ j, unit_entry i k * K i j) Hk). ring. }
  clear HK. revert Hd HP. induction d as [|m IH]; intros Hm HP; [lia|]. rewrite sum_S. pose proof (HP m ltac:(lia)). destruct m as [|m]; [unfold sum; cbn [rsum seq]; lra|].
  assert (0 < sum (S m) (λ k, K k k)) by (apply IH; [lia|intros; apply HP; lia]). lra.
Qed.

Lemma coef_nonneg : 0 < vol → 0 <= sum d (λ k, K k k) → 0 <= c.
Proof. intros Hv Ht. assert (0 < INR d) by (apply lt_0_INR; lia). unfold Rdiv. apply Rmult_le_pos; [|left; by apply Rinv_0_lt_compat]. apply Rmult_le_pos; [lra|]. apply Rmult_le_pos; [done|left; by apply Rinv_0_lt_compat]. Qed.
Lemma mimetic_nonnegative : 0 < vol → orthonormal n d Q → nonnegative d K → nonnegative n B.
Proof.
  intros Hv HQ HK x. rewrite quad_mimetic. rewrite (quad_project (λ i, A i * x i) HQ).
  assert (0 <= quad d K (λ k, sum n (λ i, N i k * x i)) / vol) by (apply Rmult_le_pos; [apply HK|left; by apply Rinv_0_lt_compat]).
  assert (0 <= c * sum n (λ i, (A i * x i - sum d (λ k, Q i k * sum n (λ j, Q j k * (A j * x j)))) * (A i * x i - sum d (λ k, Q i k * sum n (λ j, Q j k * (A j * x j)))))); [|lra].
  apply Rmult_le_pos; [apply coef_nonneg; [done|by apply trace_nonneg]|]. apply sum_nonneg. intros. apply Rle_0_sqr.
Qed.
(** The part that sees no linear functions. *)
Lemma nullspace i l : orthonormal n d Q → spans n d Q (λ i l, C i l * A i) → (i < n)%nat → (l < d)%nat →
  sum n (λ j, (unit_entry i j - sum d (λ k, Q i k * Q j k)) * (A j * C j l)) = 0.
Proof.
  clear Hd. intros HQ [T HT] Hi Hl. rewrite project, (sum_pick_l n i (λ j, A j * C j l) Hi).
  rewrite (sum_ext d _ (λ k, Q i k * T k l)); [rewrite <- HT by done; ring|]. intros k Hk. f_equal.
  rewrite (sum_ext n _ (λ j, sum d (λ m, Q j k * Q j m * T m l))).
  - rewrite sum_swap. rewrite (sum_ext d _ (λ m, T m l * unit_entry k m)); [apply (sum_pick_l d k (λ m, T m l) Hk)|]. intros m Hm. rewrite sum_scale_r, (HQ k m Hk Hm). ring.
  - intros j Hj. rewrite (Rmult_comm (A j)), (HT j l Hj Hl), <- sum_scale. apply sum_ext. intros. ring.
Qed.
Lemma mimetic_exact : vol ≠ 0 → orthonormal n d Q → spans n d Q (λ i l, C i l * A i) → green n d vol N C → exact_for_linear n d B N K C.
Proof.
  clear Hd. intros Hv HQ HS HG g i Hi. assert (HB : ∀ l, (l < d)%nat → sum n (λ j, B i j * C j l) = sum d (λ k, N i k * K k l)).
  { intros l Hl. unfold mimetic. set (cc := c).
    rewrite (sum_ext n _ (λ j, sum d (λ k, sum d (λ m, / vol * (N i k * K k m) * (N j m * C j l))) + cc * A i * ((unit_entry i j - sum d (λ k, Q i k * Q j k)) * (A j * C j l)))).
    - rewrite sum_plus, sum_scale, nullspace by done. rewrite Rmult_0_r, Rplus_0_r. rewrite sum_swap. apply sum_ext. intros k Hk. rewrite sum_swap.
      rewrite (sum_ext d _ (λ m, N i k * K k m * unit_entry m l)); [apply (sum_pick d l (λ m, N i k * K k m) Hl)|]. intros m Hm. rewrite sum_scale, (HG m l Hm Hl). field. done.
    - intros j Hj. rewrite (sum_ext d (λ k, sum d (λ m, / vol * (N i k * K k m) * (N j m * C j l))) (λ k, / vol * C j l * sum d (λ m, N i k * K k m * N j m))).
      + rewrite sum_scale. unfold Rdiv. ring.
      + intros k _. rewrite <- sum_scale. apply sum_ext. intros. ring. }
  rewrite (sum_ext n _ (λ j, sum d (λ l, B i j * C j l * g l))) by (intros j _; rewrite <- sum_scale; apply sum_ext; intros; ring).
  rewrite sum_swap. rewrite (sum_ext d _ (λ l, sum d (λ k, N i k * K k l * g l))).
  - rewrite sum_swap. apply sum_ext. intros k _. rewrite <- sum_scale. apply sum_ext. intros. ring.
  - intros l Hl. rewrite sum_scale_r, (HB l Hl). rewrite <- sum_scale_r. done.
Qed.
Lemma mimetic_definite : (d ≤ 3)%nat → 0 < vol → orthonormal n d Q → spans n d Q (λ i l, C i l * A i) → green n d vol N C → (∀ i, (i < n)%nat → A i ≠ 0) →
  definite d K → definite n B.
Proof.
  intros H3 Hv HQ [T HT] HG HA HK x (i0 & Hi0 & Hx0). assert (HKn : nonnegative d K).
  { intros y. destruct (Rle_lt_dec 0 (quad d K y)) as [|Hneg]; [done|]. exfalso.
    assert (Hall : ∀ k, (k < d)%nat → y k = 0). { intros k Hk. destruct (Req_EM_T (y k) 0) as [|Hne]; [done|]. exfalso. assert (0 < quad d K y) by (apply HK; by exists k). lra. }
    unfold quad in Hneg. rewrite sum_zero in Hneg; [lra|]. intros i Hi. apply sum_zero. intros j Hj. rewrite (Hall i Hi). ring. }
  rewrite quad_mimetic, (quad_project (λ i, A i * x i) HQ). set (y := λ k, sum n (λ i, N i k * x i)). set (q := λ k, sum n (λ j, Q j k * (A j * x j))).
  set (E := sum n _). assert (HE : 0 <= E) by (apply sum_nonneg; intros; apply Rle_0_sqr).
  assert (Hc : 0 < c). { assert (0 < INR d) by (apply lt_0_INR; lia). pose proof (trace_pos HK). unfold Rdiv. apply Rmult_lt_0_compat; [|by apply Rinv_0_lt_compat]. apply Rmult_lt_0_compat; [lra|]. apply Rmult_lt_0_compat; [done|by apply Rinv_0_lt_compat]. }
  assert (Hq : 0 <= quad d K y) by apply HKn. assert (0 < / vol) as Hiv by (by apply Rinv_0_lt_compat).
  destruct (Req_EM_T E 0) as [E0|Hne]; [|assert (0 < c * E) by (apply Rmult_lt_0_compat; lra); assert (0 <= quad d K y / vol) by (apply Rmult_le_pos; lra); lra].
  assert (Hy : ∃ k, (k < d)%nat ∧ y k ≠ 0).
  { destruct (zero_or d y) as [Y0|?]; [exfalso|done].
    assert (W : ∀ i, (i < n)%nat → A i * x i = sum d (λ k, Q i k * q k)). { intros i Hi. pose proof (sum_squares n _ E0 i Hi) as H. cbv beta in H. unfold q. lra. }
    assert (Q0 : ∀ k, (k < d)%nat → q k = 0).
    { apply (no_kernel d (λ k m, / vol * sum n (λ i, N i k * (/ A i * Q i m))) T); [done| |].
      - intros k l Hk Hl. transitivity (/ vol * sum n (λ i, N i k * C i l)); [|rewrite (HG k l Hk Hl); field; lra].
        rewrite (sum_ext d _ (λ m, / vol * sum n (λ i, N i k * / A i * (Q i m * T m l)))).
        2:{ intros m _. rewrite Rmult_assoc, <- sum_scale_r. f_equal. apply sum_ext. intros. ring. }
        rewrite sum_scale. f_equal. rewrite sum_swap. apply sum_ext. intros i Hi. rewrite sum_scale, <- HT by done. field. by apply HA.
      - intros k Hk. transitivity (/ vol * y k); [|rewrite (Y0 k Hk); ring].
        rewrite (sum_ext d _ (λ m, / vol * sum n (λ i, N i k * / A i * (Q i m * q m)))).
        2:{ intros m _. rewrite Rmult_assoc, <- sum_scale_r. f_equal. apply sum_ext. intros. ring. }
        rewrite sum_scale. f_equal. rewrite sum_swap. apply sum_ext. intros i Hi. rewrite sum_scale, <- (W i Hi). field. by apply HA. }
    apply Hx0. assert (A i0 * x i0 = 0) as H0. { rewrite (W i0 Hi0). apply sum_zero. intros k Hk. rewrite (Q0 k Hk). ring. }
    apply Rmult_integral in H0 as [H0|H0]; [by apply HA in H0|done]. }
  assert (0 < quad d K y) by (by apply HK). assert (0 < quad d K y / vol) by (by apply Rmult_lt_0_compat). rewrite E0. lra.
Qed.
End algebra.
