(** Properties of fluids that depend on pressure (C65). *)
From Coq Require Import Reals Lra Psatz.
From Verif Require Import Base LoopModel LoopProof TableModel TofSpec MiscSpec UTableProof NTableProof NTableProps PhaseModel KrModel KrSpec KrProof KrProps PvtModel PvtSpec PvtProof.
Local Open Scope R_scope.
Unset Default Proof Using.

(** ** Constant compressibility *)
Lemma poly_pos x : 0 < 1 + x + / 2 * x * x.
Proof. assert (0 <= (x + 1) * (x + 1)) by apply Rle_0_sqr. lra. Qed.
Lemma dl_poly c p0 p : derivable_pt_lim (λ t, 1 + c * (t - p0) + / 2 * (c * (t - p0)) * (c * (t - p0))) p ((1 + c * (p - p0)) * c).
Proof.
  assert (H : derivable_pt_lim (λ t, - c * p0 + t * c) p c) by apply dl_lin.
  eapply dl_ext; [eapply dl_eq; [apply (derivable_pt_lim_plus (λ t, 1 + (- c * p0 + t * c)) (λ t, / 2 * ((- c * p0 + t * c) * (- c * p0 + t * c))))|]|].
  - eapply dl_ext; [eapply dl_eq; [apply (derivable_pt_lim_plus (fct_cte 1) (λ t, - c * p0 + t * c)); [apply derivable_pt_lim_const|exact H]|apply Rplus_0_l]|]. intros t. reflexivity.
  - apply (derivable_pt_lim_scal (λ t, (- c * p0 + t * c) * (- c * p0 + t * c)) (/ 2)). apply (derivable_pt_lim_mult (λ t, - c * p0 + t * c) (λ t, - c * p0 + t * c)); exact H.
  - cbn. field.
  - intros t. unfold plus_fct. field.
Qed.
(** C65: water and dead oil of constant compressibility: B and viscosity are defined
    and positive at all pressures, and dBdp is the derivative of B. *)
Theorem C65_const c p : ∃ b d, cc_dB c p = Some (b, d) ∧ value_rate (cc_B c) p b d ∧ (0 < cc_refB c → 0 < b) ∧ (∃ m, cc_mu c p = Some m ∧ (0 < cc_visc c → 0 < m)) ∧
  (p = cc_press c → b = cc_refB c) ∧ (0 < cc_refB c → 0 < cc_comp c → cc_press c <= p → d < 0).
Proof.
  assert (HM : ∃ m, cc_mu c p = Some m ∧ (0 < cc_visc c → 0 < m)).
  { unfold cc_mu. destruct (Req_EM_T (cc_vcomp c) 0); [eexists; split; [done|lra]|]. set (x := - cc_vcomp c * (p - cc_press c)). pose proof (poly_pos x). rewrite rdiv_Some by lra. eexists. split; [done|]. intros. by apply Rdiv_lt_0_compat. }
  destruct (Req_EM_T (cc_comp c) 0) as [E|E].
  - exists (cc_refB c), 0. unfold cc_dB, value_rate. split; [by destruct (Req_EM_T (cc_comp c) 0)|]. split; [|split; [done|split; [done|split; [done|lra]]]].
    assert (HB : ∀ t, cc_B c t = Some (cc_refB c)) by (intros t; unfold cc_B; by destruct (Req_EM_T (cc_comp c) 0)). split; [done|]. split; [exists 1; split; [lra|]; intros t _; rewrite HB; eauto|].
    eapply dl_ext; [apply (derivable_pt_lim_const (cc_refB c))|]. intros t. by rewrite HB.
  - set (f := λ t, 1 + cc_comp c * (t - cc_press c) + / 2 * (cc_comp c * (t - cc_press c)) * (cc_comp c * (t - cc_press c))).
    assert (HF : ∀ t, 0 < f t) by (intros t; apply poly_pos).
    assert (HB : ∀ t, cc_B c t = Some (cc_refB c / f t)). { intros t. unfold cc_B. destruct (Req_EM_T (cc_comp c) 0); [done|]. apply rdiv_Some. pose proof (HF t). unfold f in *. lra. }
    pose proof (HF p) as Hp. exists (cc_refB c / f p), (- cc_refB c / (f p * f p) * (1 + cc_comp c * (p - cc_press c)) * cc_comp c).
    split. { unfold cc_dB. destruct (Req_EM_T (cc_comp c) 0); [done|]. change (1 + cc_comp c * (p - cc_press c) + / 2 * (cc_comp c * (p - cc_press c)) * (cc_comp c * (p - cc_press c))) with (f p). rewrite (rdiv_Some _ (f p)) by lra. cbn [mbind option_bind]. rewrite (rdiv_Some _ (f p * f p)) by nra. done. }
    split; [split; [done|split]|].
    + exists 1. split; [lra|]. intros t _. rewrite HB. eauto.
    + assert (HP : derivable_pt_lim f p ((1 + cc_comp c * (p - cc_press c)) * cc_comp c)) by apply dl_poly. clearbody f.
      eapply dl_ext; [eapply dl_eq; [apply (derivable_pt_lim_scal (λ t, 1 / f t) (cc_refB c)); apply (dl_inv f _ _ HP); lra|]|].
      * field. lra.
      * intros t. unfold mult_real_fct. rewrite HB. cbn. pose proof (HF t). field. lra.
    + split; [intros; by apply Rdiv_lt_0_compat|]. split; [done|]. split.
      * intros ->. unfold f. replace (cc_press c - cc_press c) with 0 by lra. field.
      * intros H1 H2 H3. assert (0 < cc_refB c / (f p * f p)) by (apply Rdiv_lt_0_compat; [|apply Rmult_lt_0_compat]; lra). assert (0 <= cc_comp c * (p - cc_press c)) by nra.
        replace (- cc_refB c / (f p * f p)) with (- (cc_refB c / (f p * f p))) by (field; lra).
        assert (0 < cc_refB c / (f p * f p) * (1 + cc_comp c * (p - cc_press c)) * cc_comp c) by (apply Rmult_lt_0_compat; [apply Rmult_lt_0_compat|]; lra). lra.
Qed.
Print Assumptions C65_const.

(** ** Dead oil and dry gas *)
(** C65: dBdp of tables of 1/B, for n points; the outputs beyond are kept. *)
Theorem C65_dead d n p outB outD b r : (n ≤ length p)%nat → (n ≤ length outB)%nat → (n ≤ length outD)%nat → defined (dd_inv d) →
  (∀ i x, (i < n)%nat → p !! i = Some x → tab (dd_inv d) x ≠ 0 ∧ slope (dd_inv d) x (r i) ∧ b i = 1 / tab (dd_inv d) x) →
  ∃ B D, dd_dBdp d n p outB outD = Some (B, D) ∧ length B = length outB ∧ length D = length outD ∧
    (∀ i, (n ≤ i)%nat → B !! i = outB !! i ∧ D !! i = outD !! i) ∧
    ∀ i x, (i < n)%nat → p !! i = Some x → ∃ δ, B !! i = Some (b i) ∧ D !! i = Some δ ∧ value_rate (dd_B d) x (b i) δ.
Proof.
  intros Hp HB HD HDef H.
  assert (HV : ∀ i x, (i < n)%nat → p !! i = Some x → value_rate (dd_B d) x (b i) (- b i * b i * r i)).
  { intros i x Hi Hx. destruct (H i x Hi Hx) as (H0 & [_ HS] & ->). apply (value_rate_inv (tv (dd_inv d)) x (tab (dd_inv d) x) (r i)); [|done]. split; [by apply defined_tab|]. split; [exists 1; split; [lra|]; intros t _; apply HDef|]. exact HS. }
  destruct (each_ok n (λ i, x ← p !! i; dd_B d x) b outB HB) as (B & EB & LB & VB & RB).
  { intros i Hi. destruct (lookup_lt_is_Some_2 p i) as [x Hx]; [lia|]. rewrite Hx. cbn [mbind option_bind]. by destruct (HV i x Hi Hx). }
  destruct (each_ok n (λ i, b ← B !! i; x ← p !! i; s ← td (dd_inv d) x; Some (- b * b * s)) (λ i, - b i * b i * r i) outD HD) as (D & ED & LD & VD & RD).
  { intros i Hi. destruct (lookup_lt_is_Some_2 p i) as [x Hx]; [lia|]. rewrite VB, Hx by done. cbn [mbind option_bind]. destruct (H i x Hi Hx) as (_ & [-> _] & _). done. }
  exists B, D. split; [unfold dd_dBdp; rewrite EB; cbn [mbind option_bind]; by rewrite ED|]. split; [done|]. split; [done|]. split; [auto|].
  intros i x Hi Hx. exists (- b i * b i * r i). split; [by apply VB|]. split; [by apply VD|]. by apply HV.
Qed.
Print Assumptions C65_dead.

(** ** Live oil *)
(** The surface volumes of oil and gas. *)
Definition volumes (pos : list nat) (z : list R) (liq vap : R) : Prop := vol pos Liquid z = Some liq ∧ vol pos Vapour z = Some vap.

Lemma interp_sat L ps bs ms rs k y x : live_tables L ps bs ms rs → [ps; bs; ms; rs] !! k = Some y → interp (lv_sat L) 0 k x = Some (through ps y x) ∧ interp_deriv (lv_sat L) 0 k x = linear_derivative (length ps) ps y x ∧ length y = length ps.
Proof.
  intros [E (L1 & L2 & L3 & L4) O _] Hk. unfold interp, interp_deriv. rewrite E, Hk. cbn [mbind option_bind lookup list_lookup].
  assert (length y = length ps) by (destruct k as [|[|[|[|k]]]]; cbn in Hk; simplify_eq; done). split; [by eapply lin_defined|done].
Qed.
Lemma interp_und t item x : good_table t → (item = 1 ∨ item = 2)%nat → ∃ a y σ, t !! 0%nat = Some a ∧ t !! item = Some y ∧ (2 ≤ length a)%nat ∧ ordered σ a ∧ length y = length a ∧ (length a < 2 → False)%nat ∧
  interp t 0 item x = Some (through a y x) ∧ interp_deriv t 0 item x = linear_derivative (length a) a y x.
Proof.
  intros (a & b & m & σ & -> & Ha & Hb & Hm & O) [-> | ->]; eexists a, _, σ; repeat (split; [done || lia|]); (split; [|done]); unfold interp; cbn [mbind option_bind lookup list_lookup]; by eapply lin_defined.
Qed.
(** Where the saturated value of the solution factor does not exceed what there is. *)
Definition max_rs (liq vap : R) : R := if Req_EM_T liq 0 then 0 else vap / liq.

(** What miscible_oil computes. *)
Lemma oil_cases L ps bs ms rs pos z liq vap item p : live_tables L ps bs ms rs → ordered 1 rs → volumes pos z liq vap → (item = 1 ∨ item = 2)%nat →
  ∃ i w t0 t1 a0 a1 y0 y1 σ0 σ1, lv_und L !! i = Some t0 ∧ lv_und L !! S i = Some t1 ∧ t0 !! 0%nat = Some a0 ∧ t1 !! 0%nat = Some a1 ∧ t0 !! item = Some y0 ∧ t1 !! item = Some y1 ∧
    (2 ≤ length a0)%nat ∧ ordered σ0 a0 ∧ length y0 = length a0 ∧ (2 ≤ length a1)%nat ∧ ordered σ1 a1 ∧ length y1 = length a1 ∧
    table_index (length rs) rs (max_rs liq vap) = Some i ∧ w = (max_rs liq vap - val rs i) / (val rs (S i) - val rs i) ∧
    miscible_oil L pos p z item false = Some (if Rlt_dec (through ps rs p) (max_rs liq vap) then through ps (item_of bs ms item) p else through a0 y0 p + w * (through a1 y1 p - through a0 y0 p)) ∧
    miscible_oil L pos p z item true = (if Rlt_dec (through ps rs p) (max_rs liq vap) then linear_derivative (length ps) ps (item_of bs ms item) p
      else d0 ← linear_derivative (length a0) a0 y0 p; d1 ← linear_derivative (length a1) a1 y1 p; Some (d0 + w * (d1 - d0))).
Proof.
  intros G OR [Vl Vv] Hit. pose proof G as [E (L1 & L2 & L3 & L4) O (LU & FU)].
  assert (EM : (if Req_EM_T liq 0 then Some 0 else vap ← vol pos Vapour z; rdiv vap liq) = Some (max_rs liq vap)). { unfold max_rs. destruct (Req_EM_T liq 0); [done|]. rewrite Vv. cbn. by rewrite rdiv_Some. }
  destruct (table_index_spec 1 rs (max_rs liq vap) (length rs) OR ltac:(lia) (le_n _)) as (i & Ei & Hi & _).
  destruct (lookup_lt_is_Some_2 (lv_und L) i) as [t0 T0]; [lia|]. destruct (lookup_lt_is_Some_2 (lv_und L) (S i)) as [t1 T1]; [lia|].
  pose proof (proj1 (Forall_lookup _ _) FU _ _ T0) as G0. pose proof (proj1 (Forall_lookup _ _) FU _ _ T1) as G1.
  destruct (interp_und t0 item p G0 Hit) as (a0 & y0 & σ0 & A0 & Y0 & La0 & Oa0 & Ly0 & N0 & I0 & D0). destruct (interp_und t1 item p G1 Hit) as (a1 & y1 & σ1 & A1 & Y1 & La1 & Oa1 & Ly1 & N1 & I1 & D1).
  assert (R0 : rs !! i = Some (val rs i)). { unfold val. destruct (lookup_lt_is_Some_2 rs i) as [v ->]; [lia|done]. } assert (R1 : rs !! (i + 1)%nat = Some (val rs (S i))). { rewrite Nat.add_1_r. unfold val. destruct (lookup_lt_is_Some_2 rs (S i)) as [v ->]; [lia|done]. }
  assert (HN : val rs (S i) - val rs i ≠ 0). { rewrite Nat.add_1_r in R1. pose proof (ordered_ne 1 rs i (S i) _ _ OR ltac:(lia) R0 R1). lra. }
  assert (Hk : [ps; bs; ms; rs] !! item = Some (item_of bs ms item)) by (destruct Hit as [-> | ->]; done).
  destruct (interp_sat L ps bs ms rs 3 rs p G eq_refl) as (S1 & S2 & _). destruct (interp_sat L ps bs ms rs item (item_of bs ms item) p G Hk) as (S3 & S4 & _).
  exists i, ((max_rs liq vap - val rs i) / (val rs (S i) - val rs i)), t0, t1, a0, a1, y0, y1, σ0, σ1. do 14 (split; [done|]).
  unfold miscible_oil. rewrite S1. cbn [mbind option_bind]. rewrite Vl. cbn [mbind option_bind]. rewrite EM. cbn [mbind option_bind].
  destruct (Rlt_dec (through ps rs p) (max_rs liq vap)); [done|]. rewrite E. cbn [mbind option_bind lookup list_lookup]. rewrite Ei. cbn [mbind option_bind]. rewrite R0. cbn [mbind option_bind]. rewrite R1. cbn [mbind option_bind]. rewrite rdiv_Some by done. cbn [mbind option_bind].
  rewrite T0. cbn [mbind option_bind]. rewrite A0. cbn [mbind option_bind]. rewrite decide_False by lia. rewrite Nat.add_1_r, T1. cbn [mbind option_bind]. rewrite A1. cbn [mbind option_bind]. rewrite decide_False by lia. rewrite I0, I1, D0, D1.
  by rewrite !decide_False by lia.
Qed.
(** C65: 1/B and viscosity of live oil are defined at all pressures; away from the
    bubble point and the nodes of the tables miscible_oil with deriv is the derivative. *)
Theorem C65_oil_rate L ps bs ms rs pos z liq vap item p : live_tables L ps bs ms rs → ordered 1 rs → volumes pos z liq vap → (item = 1 ∨ item = 2)%nat →
  (∀ q, is_Some (miscible_oil L pos q z item false)) ∧
  (p ∉ ps → (∀ t a, t ∈ lv_und L → t !! 0%nat = Some a → p ∉ a) → through ps rs p ≠ max_rs liq vap →
   ∃ v d, miscible_oil L pos p z item true = Some d ∧ value_rate (λ q, miscible_oil L pos q z item false) p v d).
Proof.
  intros G OR V Hit. pose proof G as [E (L1 & L2 & L3 & L4) O (LU & FU)].
  assert (HD : ∀ q, is_Some (miscible_oil L pos q z item false)).
  { intros q. destruct (oil_cases L ps bs ms rs pos z liq vap item q G OR V Hit) as (i & w & t0 & t1 & a0 & a1 & y0 & y1 & σ0 & σ1 & _ & _ & _ & _ & _ & _ & _ & _ & _ & _ & _ & _ & _ & _ & -> & _). eauto. }
  split; [done|]. intros Hp Hu Hne.
  assert (Hk : [ps; bs; ms; rs] !! item = Some (item_of bs ms item)) by (destruct Hit as [-> | ->]; done). destruct (interp_sat L ps bs ms rs item _ p G Hk) as (_ & _ & Ly).
  destruct (lin_rate _ ps rs p O L1 L4 Hp) as (dr & _ & Hr). destruct (lin_rate _ ps (item_of bs ms item) p O L1 Ly Hp) as (ds & Eds & Hds).
  destruct (oil_cases L ps bs ms rs pos z liq vap item p G OR V Hit) as (i & w & t0 & t1 & a0 & a1 & y0 & y1 & σ0 & σ1 & T0 & T1 & A0 & A1 & Y0 & Y1 & La0 & Oa0 & Ly0 & La1 & Oa1 & Ly1 & Ei & Ew & Ev & Ed).
  assert (HQ : ∀ q, miscible_oil L pos q z item false = Some (if Rlt_dec (through ps rs q) (max_rs liq vap) then through ps (item_of bs ms item) q else through a0 y0 q + w * (through a1 y1 q - through a0 y0 q))).
  { intros q. destruct (oil_cases L ps bs ms rs pos z liq vap item q G OR V Hit) as (i' & w' & t0' & t1' & a0' & a1' & y0' & y1' & σ0' & σ1' & T0' & T1' & A0' & A1' & Y0' & Y1' & _ & _ & _ & _ & _ & _ & Ei' & Ew' & Ev' & _). rewrite Ei in Ei'. injection Ei' as <-. rewrite T0 in T0'. injection T0' as <-. rewrite T1 in T1'. injection T1' as <-. rewrite A0 in A0'. injection A0' as <-. rewrite A1 in A1'. injection A1' as <-. rewrite Y0 in Y0'. injection Y0' as <-. rewrite Y1 in Y1'. injection Y1' as <-. rewrite <- Ew in Ew'. subst w'. exact Ev'. }
  revert Ev Ed. destruct (Rlt_dec (through ps rs p) (max_rs liq vap)) as [Hlt|Hge]; intros Ev Ed; rewrite Ed; clear Ed.
  - destruct (below ps rs p dr _ Hr Hlt) as (δ & Hδ & Hb). exists (through ps (item_of bs ms item) p), ds. split; [done|]. split; [by rewrite Ev|]. split; [exists 1; split; [lra|]; done|].
    eapply (dl_local _ _ _ _ δ Hδ Hds). intros t Ht. rewrite HQ. specialize (Hb t Ht). destruct (Rlt_dec _ _); [done|lra].
  - destruct (above ps rs p dr (max_rs liq vap) Hr) as (δ & Hδ & Hb); [lra|].
    destruct (lin_rate _ a0 y0 p Oa0 La0 Ly0) as (d0 & E0 & H0); [by eapply (Hu t0); [eapply elem_of_list_lookup_2|]|]. destruct (lin_rate _ a1 y1 p Oa1 La1 Ly1) as (d1 & E1 & H1); [by eapply (Hu t1); [eapply elem_of_list_lookup_2|]|].
    rewrite E0, E1. cbn [mbind option_bind]. eexists _, _. split; [done|]. split; [by rewrite Ev|]. split; [exists 1; split; [lra|]; done|].
    eapply (dl_local _ _ _ _ δ Hδ (dl_blend _ _ _ w _ _ H0 H1)). intros t Ht. rewrite HQ. specialize (Hb t Ht). destruct (Rlt_dec _ _); [lra|done].
Qed.
Print Assumptions C65_oil_rate.
(** C65: dBdp of live oil is the derivative of B. *)
Theorem C65_oil_B L ps bs ms rs pos z liq vap p v : live_tables L ps bs ms rs → ordered 1 rs → volumes pos z liq vap →
  p ∉ ps → (∀ t a, t ∈ lv_und L → t !! 0%nat = Some a → p ∉ a) → through ps rs p ≠ max_rs liq vap →
  miscible_oil L pos p z 1 false = Some v → v ≠ 0 → ∃ d, oil_dB L pos p z = Some (1 / v, d) ∧ value_rate (λ q, oil_B L pos q z) p (1 / v) d.
Proof.
  intros G OR V Hp Hu Hne Ev Hv. destruct (C65_oil_rate L ps bs ms rs pos z liq vap 1 p G OR V ltac:(by left)) as [_ H]. destruct (H Hp Hu Hne) as (v' & d & Ed & HR). assert (v' = v) as -> by (destruct HR as [E' _]; cbn beta in E'; rewrite Ev in E'; by injection E').
  exists (- (1 / v) * (1 / v) * d). split; [|apply (value_rate_inv (λ q, miscible_oil L pos q z 1 false)); done]. unfold oil_dB, oil_B. rewrite Ev. cbn [mbind option_bind]. rewrite rdiv_Some by done. cbn [mbind option_bind]. rewrite Ed. done.
Qed.
Print Assumptions C65_oil_B.
(** C65: the solution factor of oil is what is dissolved at this pressure if saturated,
    but not more than there is; dRdp is its derivative. *)
Theorem C65_oil_R L ps bs ms rs pos z liq vap p : live_tables L ps bs ms rs → volumes pos z liq vap → liq ≠ 0 →
  oil_R L pos p z = Some (if Req_EM_T vap 0 then 0 else Rmin (through ps rs p) (vap / liq)) ∧
  (p ∉ ps → through ps rs p ≠ vap / liq → ∃ v d, oil_dR L pos p z = Some (v, d) ∧ value_rate (λ q, oil_R L pos q z) p v d).
Proof.
  intros G [Vl Vv] Hl. pose proof G as [E (L1 & L2 & L3 & L4) O (LU & FU)].
  assert (HQ : ∀ q, oil_R L pos q z = Some (if Req_EM_T vap 0 then 0 else Rmin (through ps rs q) (vap / liq))).
  { intros q. unfold oil_R. rewrite Vv. cbn [mbind option_bind]. destruct (Req_EM_T vap 0); [done|]. destruct (interp_sat L ps bs ms rs 3 rs q G eq_refl) as (-> & _). cbn [mbind option_bind]. rewrite Vl. cbn [mbind option_bind]. rewrite rdiv_Some by done. cbn [mbind option_bind].
    unfold Rmin. destruct (Rlt_dec _ _), (Rle_dec _ _); try done; try lra. f_equal. lra. }
  split; [done|]. intros Hp Hne. unfold oil_dR. rewrite Vv. cbn [mbind option_bind]. destruct (Req_EM_T vap 0) as [H0|H0].
  - exists 0, 0. split; [done|]. split; [by rewrite HQ|]. split; [exists 1; split; [lra|]; intros t _; rewrite HQ; eauto|]. eapply dl_ext; [apply (derivable_pt_lim_const 0)|]. intros t. by rewrite HQ.
  - destruct (interp_sat L ps bs ms rs 3 rs p G eq_refl) as (-> & -> & _). cbn [mbind option_bind]. rewrite Vl. cbn [mbind option_bind]. rewrite rdiv_Some by done. cbn [mbind option_bind].
    destruct (lin_rate _ ps rs p O L1 L4 Hp) as (dr & -> & Hr). cbn [mbind option_bind]. destruct (Rlt_dec (through ps rs p) (vap / liq)) as [Hlt|Hge].
    + destruct (below ps rs p dr _ Hr Hlt) as (δ & Hδ & Hb). exists (through ps rs p), dr. split; [done|]. split; [rewrite HQ; f_equal; unfold Rmin; destruct (Rle_dec _ _); lra|]. split; [exists 1; split; [lra|]; intros t _; rewrite HQ; eauto|].
      eapply (dl_local _ _ _ _ δ Hδ Hr). intros t Ht. rewrite HQ. cbn. specialize (Hb t Ht). unfold Rmin. destruct (Rle_dec _ _); lra.
    + destruct (above ps rs p dr (vap / liq) Hr) as (δ & Hδ & Hb); [lra|]. exists (vap / liq), 0. split; [done|]. split; [rewrite HQ; f_equal; unfold Rmin; destruct (Rle_dec _ _); lra|]. split; [exists 1; split; [lra|]; intros t _; rewrite HQ; eauto|].
      eapply (dl_local _ _ _ _ δ Hδ (derivable_pt_lim_const (vap / liq) p)). intros t Ht. rewrite HQ. cbn. specialize (Hb t Ht). unfold fct_cte, Rmin. destruct (Rle_dec _ _); lra.
Qed.
Print Assumptions C65_oil_R.
(** C65: the values of live oil: those of the saturated table below the bubble point;
    above it, if the present solution factor is that of record k, those of the table of
    record k. *)
Theorem C65_oil_values L ps bs ms rs pos z liq vap item p : live_tables L ps bs ms rs → ordered 1 rs → volumes pos z liq vap → (item = 1 ∨ item = 2)%nat →
  (through ps rs p < max_rs liq vap → miscible_oil L pos p z item false = Some (through ps (item_of bs ms item) p)) ∧
  (max_rs liq vap <= through ps rs p → ∀ k t a y, rs !! k = Some (max_rs liq vap) → lv_und L !! k = Some t → t !! 0%nat = Some a → t !! item = Some y →
   miscible_oil L pos p z item false = Some (through a y p)).
Proof.
  intros G OR V Hit. pose proof G as [E (L1 & L2 & L3 & L4) O (LU & FU)].
  destruct (oil_cases L ps bs ms rs pos z liq vap item p G OR V Hit) as (i & w & t0 & t1 & a0 & a1 & y0 & y1 & σ0 & σ1 & T0 & T1 & A0 & A1 & Y0 & Y1 & _ & _ & _ & _ & _ & _ & Ei & Ew & -> & _).
  split; [intros H; by destruct (Rlt_dec _ _)|]. intros H k t a y Hk Ht Ha Hy. destruct (Rlt_dec _ _); [lra|]. f_equal.
  destruct (table_index_spec 1 rs (max_rs liq vap) (length rs) OR ltac:(lia) (le_n _)) as (i' & Ei' & Hi & Hlo & Hhi). rewrite Ei in Ei'. injection Ei' as <-. pose proof (lookup_lt_Some _ _ _ Hk) as Hkl.
  assert (R0 : rs !! i = Some (val rs i)). { unfold val. destruct (lookup_lt_is_Some_2 rs i) as [v ->]; [lia|done]. } assert (R1 : rs !! S i = Some (val rs (S i))). { unfold val. destruct (lookup_lt_is_Some_2 rs (S i)) as [v ->]; [lia|done]. }
  pose proof (ordered_ne 1 rs i (S i) _ _ OR ltac:(lia) R0 R1) as HN.
  assert (k = i ∨ k = S i) as [-> | ->].
  { destruct (decide (k < i)%nat).
    - destruct Hlo as [->|(u & Hu & Hle)]; [lia|]. pose proof (proj2 OR k i _ _ ltac:(lia) Hk Hu). lra.
    - destruct (decide (S i < k)%nat); [|lia]. destruct Hhi as [Hhi|(u & Hu & Hle)]; [lia|]. pose proof (proj2 OR (S i) k _ _ ltac:(lia) Hu Hk). lra. }
  - rewrite T0 in Ht. injection Ht as <-. rewrite A0 in Ha. injection Ha as <-. rewrite Y0 in Hy. injection Hy as <-. rewrite R0 in Hk. injection Hk as Hk. rewrite <- Hk in Ew. subst w. field. lra.
  - rewrite T1 in Ht. injection Ht as <-. rewrite A1 in Ha. injection Ha as <-. rewrite Y1 in Hy. injection Hy as <-. rewrite R1 in Hk. injection Hk as Hk. rewrite <- Hk in Ew. subst w. field. lra.
Qed.
Print Assumptions C65_oil_values.
