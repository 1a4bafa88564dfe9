(** C61: mim_ip_simple_all. *)
From Coq Require Import Reals Lra.
From Verif Require Import Base LoopModel LoopProof TableModel CsrModel CsrSpec CsrProof AccProof TofSpec TofProof CartGeomProof MimModel MimSpec MimLoop MimProof MimAlg.
Unset Default Proof Using.
Local Open Scope R_scope.

Section all.
Variables (qr : nat → nat → list R → list R) (d nf nc max_nconn : nat) (pconn conn : list nat) (cf : list (list nat)) (fneighbour : list Z) (fcentroid fnormal farea ccentroid cvol perm : list R).
Hypothesis Hd : (0 < d ≤ 3)%nat.
Hypothesis Hcf : length cf = nc.
Hypothesis Hrows : holds_rows pconn conn cf.
Hypothesis Hmax : ∀ c row, cf !! c = Some row → (length row ≤ max_nconn)%nat.
Hypothesis Hfaces : ∀ c row f, cf !! c = Some row → f ∈ row → (f < nf)%nat.
Hypothesis Lnb : length fneighbour = (2 * nf)%nat.
Hypothesis Lfc : length fcentroid = (nf * d)%nat.
Hypothesis Lfn : length fnormal = (nf * d)%nat.
Hypothesis Lfa : length farea = nf.
Hypothesis Lcc : length ccentroid = (nc * d)%nat.
Hypothesis Lcv : length cvol = nc.
Hypothesis Lperm : length perm = (nc * (d * d))%nat.
Hypothesis Hvol : ∀ c v, cvol !! c = Some v → v ≠ 0.
Hypothesis Lqr : ∀ n M, length M = (n * d)%nat → length (qr n d M) = (n * d)%nat.

Lemma comp_get l f k m : length l = (m * d)%nat → (f < m)%nat → (k < d)%nat → l !! (k + f * d)%nat = Some (comp d l f k).
Proof.
  clear. intros HL Hf Hk. unfold comp. destruct (lookup_lt_is_Some_2 l (k + f * d)) as [x ->]; [|done]. rewrite HL. assert ((f + 1) * d ≤ m * d)%nat by (apply Nat.mul_le_mono_r; lia). lia.
Qed.
Notation Nm c row := (cell_N d fneighbour fnormal c row).
Notation Cm c row := (cell_C d fcentroid ccentroid c row).
Notation Am row := (cell_A farea row).
Notation Km c := (cell_K d perm c).

Lemma gather_ok c row p cc C N A : cf !! c = Some row → slice conn p (length row) = Some row → (∀ k, (k < d)%nat → cc !! k = Some (comp d ccentroid c k)) →
  (length row * d ≤ length C)%nat → (length row * d ≤ length N)%nat → (length row ≤ length A)%nat →
  ∃ C' N' A', gather d conn fneighbour fcentroid fnormal farea c p (length row) cc (C, N, A) = Some (C', N', A') ∧ length C' = length C ∧ length N' = length N ∧ length A' = length A ∧
    mat C' 0 (length row) (length row) d (Cm c row) ∧ mat N' 0 (length row) (length row) d (Nm c row) ∧ ∀ i, (i < length row)%nat → A' !! i = Some (Am row i).
Proof using Hfaces Lnb Lfc Lfn Lfa.
  clear Hd Hcf Hrows Hmax Lcc Lcv Lperm Hvol Lqr. intros Hrow Hs Hcc LC LN LA. set (n := length row) in *. unfold gather.
  assert (IC : ∀ i k, (i < n)%nat → (k < d)%nat → (i + k * n < n * d)%nat).
  { clear. intros i j Hi Hj. assert (i + j * n < n + j * n)%nat by lia. assert (n * (j + 1) ≤ n * d)%nat by (apply Nat.mul_le_mono_l; lia). lia. }
  match goal with |- ∃ _ _ _, for_loop n 0 ?body _ = _ ∧ _ => set (f := body) end.
  destruct (for_loop_inv (λ i '(C', N', A'), length C' = length C ∧ length N' = length N ∧ length A' = length A ∧
    (∀ i' k, (i' < i)%nat → (i' < n)%nat → (k < d)%nat → C' !! (i' + k * n)%nat = Some (Cm c row i' k) ∧ N' !! (i' + k * n)%nat = Some (Nm c row i' k)) ∧ ∀ i', (i' < i)%nat → (i' < n)%nat → A' !! i' = Some (Am row i')) n 0 f (C, N, A)) as ([[C' N'] A'] & E & L1 & L2 & L3 & H1 & H2).
  - do 3 (split; [done|]). split; intros; lia.
  - intros i [[C1 N1] A1] Hi (L1 & L2 & L3 & H1 & H2). unfold f. destruct (lookup_lt_is_Some_2 row i) as [fa Hfa]; [fold n; lia|].
    rewrite (slice_lookup _ _ _ _ i Hs) by (fold n; lia). rewrite Hfa. cbn [mbind option_bind].
    assert (Hlt : (fa < nf)%nat) by (eapply Hfaces; [exact Hrow|by eapply elem_of_list_lookup_2]).
    assert (Hno : face_no row i = fa) by (unfold face_no; by rewrite Hfa).
    destruct (lookup_lt_is_Some_2 fneighbour (2 * fa)) as [nb Hnb]; [lia|]. rewrite Hnb. cbn [mbind option_bind].
    destruct (lookup_lt_is_Some_2 farea fa) as [ar Har]; [lia|]. rewrite Har. cbn [mbind option_bind]. rewrite upd_Some by (fold n in Hi; lia). cbn [mbind option_bind].
    set (s := 2 * (if decide (nb = Z.of_nat c) then 1 else 0) - 1).
    assert (Hsg : s = outward fneighbour c fa). { unfold s, outward. rewrite Hnb. destruct (decide (nb = Z.of_nat c)) as [->|Hne]; [rewrite decide_True by done; ring|]. rewrite decide_False by (intros [=]; done). ring. }
    match goal with |- context [for_loop d 0 ?body (C1, N1)] => set (h := body) end.
    destruct (for_loop_inv (λ j '(C', N'), length C' = length C ∧ length N' = length N ∧
      ∀ i' k, (i' < i ∧ k < d ∨ i' = i ∧ k < j)%nat → (i' < n)%nat → C' !! (i' + k * n)%nat = Some (Cm c row i' k) ∧ N' !! (i' + k * n)%nat = Some (Nm c row i' k)) d 0 h (C1, N1)) as ([C2 N2] & -> & M1 & M2 & M3).
    + split; [done|]. split; [done|]. intros i' k [[Hi' Hk]|[_ Hk]] Hn'; [by apply H1|lia].
    + intros j [C2 N2] Hj (M1 & M2 & M3). unfold h. rewrite (comp_get fcentroid fa j nf) by (done || lia). cbn [mbind option_bind]. rewrite (Hcc j) by lia. cbn [mbind option_bind].
      pose proof (IC i j ltac:(lia) ltac:(lia)) as Hix. rewrite upd_Some by lia. cbn [mbind option_bind]. rewrite (comp_get fnormal fa j nf) by (done || lia). cbn [mbind option_bind]. rewrite upd_Some by lia. cbn [mbind option_bind].
      eexists. split; [done|]. cbn beta iota. split; [by rewrite insert_length|]. split; [by rewrite insert_length|]. intros i' k Hik Hn'.
      destruct (decide (i' = i ∧ k = j)) as [[-> ->]|Hne].
      * rewrite !list_lookup_insert by lia. unfold cell_C, cell_N. by rewrite Hno, Hsg.
      * rewrite !list_lookup_insert_ne; [apply M3; [lia|done]| |]; intros Ex; destruct (ix_inj 0 n n i j i' k (Nat.le_refl n) ltac:(lia) ltac:(lia) Ex); lia.
    + cbn [mbind option_bind]. eexists. split; [done|]. cbn beta iota. split; [done|]. split; [done|]. split; [by rewrite insert_length|]. split.
      * intros i' k Hi' Hn' Hk. apply M3; [lia|done].
      * intros i' Hi' Hn'. destruct (decide (i' = i)) as [->|]; [rewrite list_lookup_insert by lia; unfold cell_A; by rewrite Hno, Har|]. rewrite list_lookup_insert_ne by lia. apply H2; lia.
  - exists C', N', A'. split; [done|]. do 3 (split; [done|]). split; [|split].
    + intros i k Hi Hk. by apply H1.
    + intros i k Hi Hk. by apply H1.
    + intros i Hi. by apply H2.
Qed.

Lemma start_S c row : cf !! c = Some row → start cf (c + 1) = (start cf c + length row * length row)%nat.
Proof. clear. intros H. unfold start. rewrite Nat.add_1_r, (take_S_r _ _ _ H), map_app, list_sum_app. cbn. lia. Qed.
Lemma start_mono c c' : (c ≤ c')%nat → (start cf c ≤ start cf c')%nat.
Proof. clear. intros H. unfold start. replace c' with (c + (c' - c))%nat by lia. rewrite <- (take_take_drop cf c (c' - c)), map_app, list_sum_app. lia. Qed.

(** The matrix that goes into the factorization. *)
Definition factored (row : list nat) (c : nat) (M : list R) : Prop := length M = (length row * d)%nat ∧ ∀ i k, (i < length row)%nat → (k < d)%nat → M !! (i + k * length row)%nat = Some (Cm c row i k * Am row i).
Lemma factored_fun row c M M' : factored row c M → factored row c M' → M = M'.
Proof.
  clear. intros [L1 H1] [L2 H2]. apply list_eq. intros x. destruct (decide (x < length row * d)%nat) as [Hx|Hx]; [|rewrite !lookup_ge_None_2 by lia; done].
  assert (length row ≠ 0)%nat by (intros E; rewrite E in Hx; lia).
  pose proof (Nat.div_mod x (length row) ltac:(done)) as E. rewrite E. rewrite Nat.add_comm, (Nat.mul_comm (length row)).
  assert (x mod length row < length row)%nat by (by apply Nat.mod_upper_bound). assert (x / length row < d)%nat by (by apply Nat.div_lt_upper_bound).
  by rewrite H1, H2.
Qed.
Definition cell_Q (M : list R) (n i k : nat) : R := default 0 (qr n d M !! (i + k * n)%nat).

Definition inv (B0 : list R) (lwork c : nat) (s : mstate) : Prop :=
  length (m_cc s) = 3%nat ∧ length (m_C s) = (max_nconn * d)%nat ∧ length (m_N s) = (max_nconn * d)%nat ∧ length (m_A s) = max_nconn ∧ length (m_work s) = lwork ∧
  m_pos s = start cf c ∧ length (m_Binv s) = length B0 ∧ (∀ k, (start cf c ≤ k)%nat → m_Binv s !! k = B0 !! k) ∧
  ∀ c' row, (c' < c)%nat → cf !! c' = Some row → ∃ M v, factored row c' M ∧ cvol !! c' = Some v ∧
    holds_matrix (m_Binv s) (start cf c') (length row) (mimetic (length row) d v (Nm c' row) (Km c') (cell_Q M (length row)) (Am row)).

Lemma cell_ok B0 c s : (start cf nc ≤ length B0)%nat → (c < nc)%nat → inv B0 (64 * (max_nconn * d)) c s →
  ∃ s', mim_cell qr d pconn conn fneighbour fcentroid fnormal farea ccentroid cvol perm (64 * (max_nconn * d)) c s = Some s' ∧ inv B0 (64 * (max_nconn * d)) (c + 1) s'.
Proof using Hd Hcf Hrows Hmax Hfaces Lnb Lfc Lfn Lfa Lcc Lcv Lperm Hvol Lqr.
  intros LB Hc (I1 & I2 & I3 & I4 & I5 & I6 & I7 & I8 & I9). unfold mim_cell.
  destruct (fill_loop d 0 (λ j cc, x ← ccentroid !! (j + c * d)%nat; upd cc j x) (λ j, j) (λ k, comp d ccentroid c k) (m_cc s)) as (cc & -> & Lc & Hcc & _).
  { intros; lia. } { intros; lia. } { intros i Y Hi _ _ _. rewrite (comp_get ccentroid c i nc) by (done || lia). done. }
  cbn [mbind option_bind]. destruct (lookup_lt_is_Some_2 cf c) as [row Hrow]; [lia|].
  destruct (proj2 (proj2 (proj2 Hrows)) c row Hrow) as (b & e & Hb & He & Hle & Hs). rewrite Hb. cbn [mbind option_bind]. assert (He' : pconn !! (c + 1)%nat = Some e) by (by rewrite Nat.add_1_r). rewrite He'. cbn [mbind option_bind].
  assert (En : (e - b)%nat = length row) by (symmetry; by eapply slice_length). rewrite En in Hs |- *. set (n := length row) in *.
  pose proof (Hmax c row Hrow) as Hm. assert (Hnd : (n * d ≤ max_nconn * d)%nat) by (apply Nat.mul_le_mono_r; done).
  destruct (gather_ok c row b cc (m_C s) (m_N s) (m_A s) Hrow Hs) as (C & N & A & EG & L1 & L2 & L3 & HC & HN & HA); [intros k Hk; apply Hcc; lia|lia|lia|lia|]. fold n in EG. rewrite EG. cbn [mbind option_bind].
  destruct (lookup_lt_is_Some_2 cvol c) as [v Hv]; [lia|]. rewrite Hv. cbn [mbind option_bind]. fold n.
  pose proof (start_S c row Hrow) as HS. fold n in HS. pose proof (start_mono (c + 1) nc ltac:(lia)) as HM.
  assert (IB : ∀ i j, (i < n)%nat → (j < n)%nat → (i + j * n < n * n)%nat).
  { clear. intros i j Hi Hj. assert ((j + 1) * n ≤ n * n)%nat by (apply Nat.mul_le_mono_r; lia). lia. }
  unfold mim_ip_simple.
  destruct (span_ok qr n n d (m_pos s) C A (m_Binv s) (Cm c row) (Am row)) as (M & C' & X' & LM & HMm & -> & LC' & SX & MX); [done|lia| |done|lia|done|intros M HM'; by apply Lqr|].
  { intros i j Hi Hj. pose proof (IB i j Hi Hj). rewrite I6, I7. lia. }
  cbn [mbind option_bind].
  assert (HK : mat perm (c * d * d) d d d (Km c)).
  { intros k l Hk Hl. unfold cell_K. destruct (lookup_lt_is_Some_2 perm (c * d * d + (k + l * d))) as [x ->]; [|done]. rewrite Lperm.
    assert ((l + 1) * d ≤ d * d)%nat by (apply Nat.mul_le_mono_r; lia). assert ((c + 1) * (d * d) ≤ nc * (d * d))%nat by (apply Nat.mul_le_mono_r; lia). lia. }
  assert (Hlw : (d * n ≤ 64 * (max_nconn * d))%nat) by (clear - Hnd; lia).
  destruct (exact_ok n n d (m_pos s) (c * d * d) (64 * (max_nconn * d)) v perm N X' (m_work s) (Km c) (Nm c row) _ (Nat.le_refl n) (proj1 Hd) (Hvol c v Hv) HK HN MX Hlw ltac:(by rewrite I5)) as (B' & W & -> & LW & SB & MB).
  cbn [mbind option_bind]. eexists. split; [done|]. assert (SS : same_outside (m_Binv s) B' (m_pos s) n n n) by (by eapply same_outside_trans). destruct SS as [LS HS'].
  unfold inv. cbn [m_cc m_C m_N m_A m_work m_pos m_Binv]. split; [lia|]. split; [lia|]. split; [lia|]. split; [lia|]. split; [lia|]. split; [lia|]. split; [lia|]. split.
  - intros k Hk. rewrite HS'; [apply I8; lia|]. intros i j Hi Hj. pose proof (IB i j Hi Hj). lia.
  - intros c' row' Hc' Hrow'. destruct (decide (c' = c)) as [->|Hne].
    + rewrite Hrow in Hrow'. injection Hrow' as <-. exists M, v. split; [done|]. split; [done|]. fold n. intros i j Hi Hj. rewrite <- I6. rewrite (MB i j Hi Hj). f_equal.
      unfold mimetic, trace. assert (INR d ≠ 0) as Hd0 by (apply not_0_INR; lia). pose proof (Hvol c v Hv) as Hv0.
      assert (rsum (λ l, rsum (λ k, Nm c row i k * Km c k l) (seq 0 d) * Nm c row j l) (seq 0 d) = sum d (λ k, sum d (λ l, Nm c row i k * Km c k l * Nm c row j l))) as ->.
      { rewrite sum_swap. apply sum_ext. intros l _. by rewrite sum_scale_r. }
      change (rsum (λ i, Km c i i) (seq 0 d)) with (sum d (λ k, Km c k k)).
      change (rsum _ (seq 0 d)) with (sum d (λ k, cell_Q M n i k * cell_Q M n j k)).
      change (delta i j) with (unit_entry i j). field. done.
    + destruct (I9 c' row' ltac:(lia) Hrow') as (M' & v' & HF & Hv' & HH). exists M', v'. split; [done|]. split; [done|]. intros i j Hi Hj. rewrite <- (HH i j Hi Hj). apply HS'.
      intros i' j' Hi' Hj' E. pose proof (start_S c' row' Hrow'). pose proof (start_mono (c' + 1) c ltac:(lia)).
      assert (i + j * length row' < length row' * length row')%nat; [|lia]. assert ((j + 1) * length row' ≤ length row' * length row')%nat by (apply Nat.mul_le_mono_r; lia). lia.
Qed.

(** C61: if memory does not run out, each cell gets its matrix. *)
Theorem C61_matrices junk o B0 : (start cf nc ≤ length B0)%nat →
  ∃ B o', mim_ip_simple_all qr d pconn conn fneighbour fcentroid fnormal farea ccentroid cvol perm nc max_nconn junk o B0 = Some (B, o') ∧ length B = length B0 ∧ (∀ k, (start cf nc ≤ k)%nat → B !! k = B0 !! k) ∧
    ((false ∈ o ∧ B = B0) ∨ ∀ c row, cf !! c = Some row → ∃ M v, factored row c M ∧ cvol !! c = Some v ∧
      holds_matrix B (start cf c) (length row) (mimetic (length row) d v (Nm c row) (Km c) (cell_Q M (length row)) (Am row))).
Proof using Hd Hcf Hrows Hmax Hfaces Lnb Lfc Lfn Lfa Lcc Lcv Lperm Hvol Lqr.
  intros LB. unfold mim_ip_simple_all. destruct (next_alloc o) as [a1 o1] eqn:E1. destruct (next_alloc o1) as [a2 o2] eqn:E2. destruct (next_alloc o2) as [a3 o3] eqn:E3. destruct (next_alloc o3) as [a4 o4] eqn:E4.
  destruct (a1 && a2 && a3 && a4) eqn:Ea.
  - match goal with |- context [for_loop nc 0 _ ?s0] => destruct (for_loop_inv (inv B0 (64 * (max_nconn * d))) nc 0 (mim_cell qr d pconn conn fneighbour fcentroid fnormal farea ccentroid cvol perm (64 * (max_nconn * d))) s0) as (s & -> & I1 & I2 & I3 & I4 & I5 & I6 & I7 & I8 & I9) end.
    + unfold inv. cbn [m_cc m_C m_N m_A m_work m_pos m_Binv]. rewrite !replicate_length. do 6 (split; [done|]). split; [done|]. split; [done|]. intros; lia.
    + intros c s Hc HI. apply cell_ok; [done|lia|done].
    + cbn [mbind option_bind]. exists (m_Binv s), o4. split; [done|]. split; [done|]. split; [done|]. right. intros c row Hrow. apply I9; [|done]. apply lookup_lt_Some in Hrow. lia.
  - exists B0, o4. split; [done|]. split; [done|]. split; [done|]. left. split; [|done].
    clear - E1 E2 E3 E4 Ea. assert (G : ∀ (o o' : list bool) a, next_alloc o = (a, o') → (a = false → false ∈ o) ∧ ∀ x, x ∈ o' → x ∈ o).
    { intros [|b l] l' a H; cbn in H; injection H as <- <-; [by split|]. split; [intros ->; left|intros x Hx; by right]. }
    destruct (G _ _ _ E1) as [F1 S1]. destruct (G _ _ _ E2) as [F2 S2]. destruct (G _ _ _ E3) as [F3 S3]. destruct (G _ _ _ E4) as [F4 _].
    destruct a1; [|by apply F1]. destruct a2; [|by apply S1, F2]. destruct a3; [|by apply S1, S2, F3]. destruct a4; [done|by apply S1, S2, S3, F4].
Qed.
End all.
