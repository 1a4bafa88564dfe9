(** C61: the matrix of one cell, entry by entry. *)
From Coq Require Import Reals Lra.
From Verif Require Import Base LoopModel LoopProof TableModel AccProof TofSpec TofProof CartGeomProof MimModel MimLoop.
Unset Default Proof Using.
Local Open Scope R_scope.

Definition delta (i j : nat) : R := if decide (i = j) then 1 else 0.

Lemma identity_ok nf nconn off X : (nf ≤ nconn)%nat → (∀ i j, (i < nf)%nat → (j < nf)%nat → (off + (i + j * nconn) < length X)%nat) →
  ∃ Y, for_loop nf 0 (λ j X, X ← for_loop nf 0 (λ i X, upd X (off + (i + j * nconn)) 0) X; upd X (off + j * (nconn + 1)) 1) X = Some Y ∧
    same_outside X Y off nconn nf nf ∧ mat Y off nconn nf nf delta.
Proof.
  intros Hn HL. destruct (for_loop_inv (λ j Y, same_outside X Y off nconn nf nf ∧ ∀ i' j', (i' < nf)%nat → (j' < j)%nat → Y !! (off + (i' + j' * nconn))%nat = Some (delta i' j')) nf 0
    (λ j X, X ← for_loop nf 0 (λ i X, upd X (off + (i + j * nconn)) 0) X; upd X (off + j * (nconn + 1)) 1) X) as (Y & E & HY & Hd).
  - split; [by split|]. intros; lia.
  - intros j Y Hj [[LY HY] Hd].
    destruct (fill_loop nf 0 (λ i X, upd X (off + (i + j * nconn)) 0) (λ i, off + (i + j * nconn))%nat (λ _, 0) Y) as (Z & EZ & LZ & HdZ & HuZ).
    + intros i Hi. rewrite LY. apply HL; lia.
    + intros; lia.
    + done.
    + rewrite EZ. cbn [mbind option_bind]. rewrite upd_Some; [|rewrite LZ, LY; replace (off + j * (nconn + 1))%nat with (off + (j + j * nconn))%nat by lia; apply HL; lia].
      eexists. split; [done|]. replace (off + j * (nconn + 1))%nat with (off + (j + j * nconn))%nat by lia. split.
      * split; [rewrite insert_length; lia|]. intros k Hk. rewrite list_lookup_insert_ne by (apply Hk; lia). rewrite HuZ by (intros i Hi; apply Hk; lia). by apply HY.
      * intros i' j' Hi' Hj'. unfold delta. destruct (decide (j' = j)) as [->|Hne].
        -- case_decide as Hij; [subst i'; apply list_lookup_insert; rewrite LZ, LY; apply HL; lia|]. rewrite list_lookup_insert_ne by lia. apply HdZ. lia.
        -- rewrite list_lookup_insert_ne. 2:{ intros E. destruct (ix_inj off nconn nf j j i' j' Hn ltac:(lia) Hi' E). lia. }
           rewrite HuZ; [apply Hd; [done|lia]|]. intros i Hi E. destruct (ix_inj off nconn nf i j i' j' Hn ltac:(lia) Hi' E). lia.
  - exists Y. split; [done|]. split; [done|]. intros i j Hi Hj. apply Hd; [done|lia].
Qed.

Section span.
Variables (qr : nat → nat → list R → list R) (nf nconn d off : nat) (C A X : list R) (Cm : nat → nat → R) (Am : nat → R).
Hypothesis Hn : (nf ≤ nconn)%nat.
Hypothesis Hd : (d ≤ 3)%nat.
Hypothesis HX : ∀ i j, (i < nf)%nat → (j < nf)%nat → (off + (i + j * nconn) < length X)%nat.
Hypothesis HC : mat C 0 nf nf d Cm.
Hypothesis LC : (nf * d ≤ length C)%nat.
Hypothesis HA : ∀ i, (i < nf)%nat → A !! i = Some (Am i).
Hypothesis Lqr : ∀ M, length M = (nf * d)%nat → length (qr nf d M) = (nf * d)%nat.

Lemma span_ok : ∃ M C' X', length M = (nf * d)%nat ∧ mat M 0 nf nf d (λ i j, Cm i j * Am i) ∧ mim_ip_span_nullspace qr nf nconn d C A X off = Some (C', X') ∧
  length C' = length C ∧ same_outside X X' off nconn nf nf ∧
  mat X' off nconn nf nf (λ i j, Am i * Am j * (delta i j - rsum (λ k, co (qr nf d M) (i + k * nf) * co (qr nf d M) (j + k * nf)) (seq 0 d))).
Proof using Hn Hd HX HC LC HA Lqr.
  unfold mim_ip_span_nullspace. destruct (identity_ok nf nconn off X Hn HX) as (X1 & -> & S1 & M1). cbn [mbind option_bind].
  assert (IC : ∀ i j, (i < nf)%nat → (j < d)%nat → (0 + (i + j * nf) < nf * d)%nat).
  { clear. intros i j Hi Hj. assert (i + j * nf < nf + j * nf)%nat by lia. assert (nf * (j + 1) ≤ nf * d)%nat by (apply Nat.mul_le_mono_l; lia). lia. }
  destruct (mat_map d (λ _, 0%nat) (λ _, nf) (λ j i C, c ← C !! (i + j * nf)%nat; a ← A !! i; upd C (i + j * nf) (c * a)) C 0 nf nf Cm (λ i j, Cm i j * Am i)) as (C1 & -> & [L1 _] & MC1).
  { done. } { intros i j Hi Hj. specialize (IC i j Hi Hj). lia. } { done. } { lia. }
  { intros i j Y Hi Hj _ Hold _. assert (Y !! (0 + (i + j * nf))%nat = Some (Cm i j)) as E.
    { apply Hold; [done|done|]. intros [_ [?|[_ ?]]]; lia. }
    cbn [Nat.add] in E. rewrite E. cbn [mbind option_bind]. rewrite HA by done. done. }
  cbn [mbind option_bind]. rewrite decide_False by lia.
  rewrite slice_Some by lia. cbn [mbind option_bind]. set (M := take (nf * d) (drop 0 C1)).
  assert (LM : length M = (nf * d)%nat) by (unfold M; rewrite take_length, drop_length; lia).
  assert (HM : mat M 0 nf nf d (λ i j, Cm i j * Am i)).
  { intros i j Hi Hj. unfold M. rewrite lookup_take by (by apply IC). rewrite drop_0, MC1 by done. rewrite decide_True by lia. done. }
  pose proof (Lqr M LM) as LQ. destruct (memcpy C1 0 (qr nf d M)) as [C2|] eqn:EC; [|exfalso; rewrite memcpy_Some in EC by lia; done]. cbn [mbind option_bind].
  assert (HQ : mat C2 0 nf nf d (λ i j, co (qr nf d M) (i + j * nf))).
  { intros i j Hi Hj. pose proof (IC i j Hi Hj). rewrite (memcpy_lookup_mid _ _ _ _ (i + j * nf) EC) by lia. by rewrite co_get by lia. }
  set (Q := λ i j, co (qr nf d M) (i + j * nf)). set (P := λ i j, rsum (λ k, Q i k * Q j k) (seq 0 d)).
  destruct (mat_map nf (λ _, 0%nat) (λ j, (j + 1)%nat) (λ j i X,
    s ← sum_loop d (λ k, x ← C2 !! (i + k * nf)%nat; y ← C2 !! (j + k * nf)%nat; Some (x * y)); c ← X !! (off + (i + j * nconn))%nat; upd X (off + (i + j * nconn)) (-1 * s + 1 * c)) X1 off nconn nf delta (λ i j, -1 * P i j + 1 * delta i j)) as (X2 & E2 & S2 & M2).
  { done. } { intros. rewrite (proj1 S1). by apply HX. } { done. } { lia. }
  { intros i j Y Hi Hj _ Hold _. rewrite (sum_loop_ok d _ (λ k, Q i k * Q j k)).
    - cbn [mbind option_bind]. rewrite Hold; [done|done|done|]. intros [_ [?|[_ ?]]]; lia.
    - intros k Hk. pose proof (HQ i k Hi Hk) as E1. pose proof (HQ j k Hj Hk) as E3. cbn [Nat.add] in E1, E3. rewrite E1. cbn [mbind option_bind]. rewrite E3. done. }
  unfold dsyrk_upper. rewrite E2. cbn [mbind option_bind].
  set (F2 := λ i j, if decide (i ≤ j)%nat then -1 * P i j + 1 * delta i j else delta i j).
  assert (M2' : mat X2 off nconn nf nf F2). { intros i j Hi Hj. rewrite M2 by done. unfold F2. destruct (decide (i ≤ j)%nat); [by rewrite decide_True by lia|by rewrite decide_False by lia]. }
  clear M2.
  destruct (mat_map nf (λ _, 0%nat) (λ j, (j + 1)%nat) (λ j i X, x ← X !! (off + (i + j * nconn))%nat; a ← A !! i; b ← A !! j; upd X (off + (i + j * nconn)) (x * (a * b))) X2 off nconn nf F2 (λ i j, F2 i j * (Am i * Am j))) as (X3 & E3 & S3 & M3).
  { done. } { intros. rewrite (proj1 S2), (proj1 S1). by apply HX. } { done. } { lia. }
  { intros i j Y Hi Hj _ Hold _. rewrite Hold; [|done|done|intros [_ [?|[_ ?]]]; lia]. cbn [mbind option_bind]. rewrite (HA i Hi). cbn [mbind option_bind]. rewrite (HA j Hj). done. }
  rewrite E3. cbn [mbind option_bind].
  set (F3 := λ i j, if decide (i ≤ j)%nat then F2 i j * (Am i * Am j) else delta i j).
  assert (M3' : mat X3 off nconn nf nf F3). { intros i j Hi Hj. rewrite M3 by done. unfold F3, F2. destruct (decide (i ≤ j)%nat); [by rewrite decide_True by lia|by rewrite decide_False by lia]. }
  clear M3.
  destruct (mat_map nf (λ j, (j + 1)%nat) (λ j, (nf - (j + 1))%nat) (λ j i X, x ← X !! (off + (j + i * nconn))%nat; upd X (off + (i + j * nconn)) x) X3 off nconn nf F3 (λ i j, F3 j i)) as (X4 & E4 & S4 & M4).
  { done. } { intros. rewrite (proj1 S3), (proj1 S2), (proj1 S1). by apply HX. } { done. } { lia. }
  { intros i j Y Hi Hj Hr Hold _. rewrite Hold; [done|done|done|]. intros [? _]. lia. }
  rewrite E4. cbn [mbind option_bind]. exists M, C2, X4. split; [done|]. split; [done|]. split; [done|]. split; [by rewrite (memcpy_length _ _ _ _ EC)|].
  split; [apply (same_outside_trans X X1 X4); [done|]; apply (same_outside_trans X1 X2 X4); [done|]; by apply (same_outside_trans X2 X3 X4)|].
  intros i j Hi Hj. rewrite M4 by done. f_equal. fold (P i j). fold (Q i). change (rsum _ (seq 0 d)) with (P i j).
  assert (HP : P j i = P i j) by (unfold P; apply rsum_ext; intros; ring).
  assert (HD : delta j i = delta i j) by (unfold delta; destruct (decide (i = j)), (decide (j = i)); congruence).
  unfold F3, F2. destruct (decide (i ≤ j)%nat) as [Hle|Hgt].
  - rewrite decide_False by lia. ring.
  - rewrite decide_True by lia. rewrite !decide_True by lia. rewrite HP, HD. ring.
Qed.
End span.

Section exact.
Variables (nf nconn d off offK lwork : nat) (vol : R) (K N Binv work : list R) (Km Nm Xm : nat → nat → R).
Hypothesis Hn : (nf ≤ nconn)%nat.
Hypothesis Hd : (0 < d)%nat.
Hypothesis Hvol : vol ≠ 0.
Hypothesis HK : mat K offK d d d Km.
Hypothesis HN : mat N 0 nf nf d Nm.
Hypothesis HB : mat Binv off nconn nf nf Xm.
Hypothesis Hl : (d * nf ≤ lwork)%nat.
Hypothesis Hw : (d * nf ≤ length work)%nat.
Definition trace : R := rsum (λ i, Km i i) (seq 0 d).
Lemma exact_ok : ∃ B' work', mim_ip_linpress_exact nf nconn d vol K offK N Binv off work lwork = Some (B', work') ∧ length work' = length work ∧
  same_outside Binv B' off nconn nf nf ∧
  mat B' off nconn nf nf (λ i j, 1 / vol * rsum (λ l, rsum (λ k, Nm i k * Km k l) (seq 0 d) * Nm j l) (seq 0 d) + 6 * trace / (INR d * vol) * Xm i j).
Proof using Hn Hd Hvol HK HN HB Hl Hw.
  unfold mim_ip_linpress_exact. rewrite decide_False by lia. rewrite (sum_loop_ok d _ (λ i, Km i i)) by (intros i Hi; by apply HK). cbn [mbind option_bind]. fold trace.
  assert (IW : ∀ i j, (i < nf)%nat → (j < d)%nat → (0 + (i + j * nf) < d * nf)%nat).
  { clear. intros i j Hi Hj. assert (i + j * nf < nf + j * nf)%nat by lia. assert ((j + 1) * nf ≤ d * nf)%nat by (apply Nat.mul_le_mono_r; lia). lia. }
  set (T := λ i j, 1 * rsum (λ k, Nm i k * Km k j) (seq 0 d)).
  destruct (fill_loop2 d (λ _, 0%nat) (λ _, nf) (λ j i C, s ← sum_loop d (λ l, x ← N !! (i + l * nf)%nat; y ← K !! (offK + (l + j * d))%nat; Some (x * y)); upd C (i + j * nf) (1 * s)) (λ i j, (i + j * nf)%nat) T work) as (W & E & LW & HW & _).
  { intros i j [Hj Hi]. pose proof (IW i j ltac:(lia) ltac:(lia)). lia. }
  { intros i j i' j' [Hj Hi] [Hj' Hi'] E. apply (ix_inj 0 nf nf); [done|lia|lia|done]. }
  { intros i j Y [Hj Hi] _ _ _. rewrite (sum_loop_ok d _ (λ k, Nm i k * Km k j)); [done|]. intros k Hk. pose proof (HN i k ltac:(lia) Hk) as E1. cbn [Nat.add] in E1. rewrite E1. cbn [mbind option_bind]. rewrite (HK k j Hk Hj). done. }
  unfold dgemm_nn0. rewrite E. cbn [mbind option_bind]. unfold rdiv. destruct (Req_EM_T vol 0) as [|_]; [done|]. cbn [mbind option_bind].
  assert (INR d ≠ 0) as Hd0 by (apply not_0_INR; lia). destruct (Req_EM_T (INR d * vol) 0) as [H0|_]; [exfalso; apply Rmult_integral in H0 as [?|?]; done|]. cbn [mbind option_bind].
  destruct (mat_map nf (λ _, 0%nat) (λ _, nf) (λ j i C, s ← sum_loop d (λ l, x ← W !! (i + l * nf)%nat; y ← N !! (j + l * nf)%nat; Some (x * y)); c ← C !! (off + (i + j * nconn))%nat; upd C (off + (i + j * nconn)) (1 / vol * s + 6 * trace / (INR d * vol) * c)) Binv off nconn nf Xm
    (λ i j, 1 / vol * rsum (λ l, T i l * Nm j l) (seq 0 d) + 6 * trace / (INR d * vol) * Xm i j)) as (B' & E' & SB & MB).
  { done. } { intros i j Hi Hj. eapply lookup_lt_Some. by apply HB. } { done. } { lia. }
  { intros i j Y Hi Hj _ Hold _. rewrite (sum_loop_ok d _ (λ l, T i l * Nm j l)).
    - cbn [mbind option_bind]. rewrite Hold; [done|done|done|]. intros [_ [?|[_ ?]]]; lia.
    - intros l Hl'. rewrite (HW i l) by (split; lia). cbn [mbind option_bind]. pose proof (HN j l Hj Hl') as E1. cbn [Nat.add] in E1. rewrite E1. done. }
  unfold dgemm_nt. rewrite E'. cbn [mbind option_bind]. exists B', W. split; [done|]. split; [done|]. split; [done|].
  intros i j Hi Hj. rewrite MB by done. rewrite decide_True by lia. do 3 f_equal. apply rsum_ext. intros l _. unfold T. by rewrite Rmult_1_l.
Qed.
End exact.
