(** Constraint checks of wells and groups: lemmas. *)
From Coq Require Import Reals Lra Psatz.
From Verif Require Import Base WellsModel WellsSpec WellsProof PhaseModel TableModel UTableProof TofSpec TofProof AccProof GroupModel GroupSpec GroupProof.
Local Open Scope R_scope.
Unset Default Proof Using.

Lemma foldl_Rplus l s : foldl Rplus s l = s + foldl Rplus 0 l.
Proof. revert s. induction l as [|x l IH]; intros s; cbn [foldl]; [lra|]. rewrite (IH (s + x)), (IH (0 + x)). lra. Qed.
Lemma mapM_seq_sum (f : nat → option R) (g : nat → R) n b : (∀ p, (b <= p < b + n)%nat → f p = Some (g p)) →
  ∃ l, mapM f (seq b n) = Some l ∧ foldl Rplus 0 l = rsum g (seq b n).
Proof.
  revert b. induction n as [|n IH]; intros b H; [by exists []|]. cbn [seq mapM rsum]. rewrite H by lia. cbn [mbind option_bind].
  destruct (IH (S b)) as (l & E & El); [intros; apply H; lia|]. rewrite E. cbn [mbind option_bind]. exists (g b :: l). split; [done|].
  cbn [foldl]. rewrite foldl_Rplus, El. lra.
Qed.

Section check.
Context {name_t : Type}.
Notation awell := (awell R name_t).
Notation wells := (wells R name_t).
Variable J : junk R name_t.
Variable pu : phase_usage.
Hypothesis Hpu : pu_ok pu.
Notation np := (pu_num pu).
Variables bhp res surf : list R.

(** ** One well *)
Lemma weighted_ok c l cur cl k x self rates : crel 0 np c l cur cl → l !! k = Some x → (np * self + np <= length rates)%nat →
  weighted np k self (c_distr c) rates = Some (counted_rate np self x rates).
Proof.
  intros Hc Hk Hr. destruct (cr_get _ _ _ _ _ _ Hc k x Hk) as (_ & _ & Hs). unfold weighted, counted_rate.
  pose proof (slice_length _ _ _ _ Hs) as Hl.
  destruct (mapM_seq_sum (λ p, d ← c_distr c !! (np * k + p)%nat; r ← rates !! (np * self + p)%nat; Some (d * r))
    (λ p, default 0 (ac_distr x !! p) * default 0 (rates !! (np * self + p)%nat)) np 0) as (m & -> & E); [|cbn [mbind option_bind]; by rewrite E].
  intros p Hp. destruct (lookup_lt_is_Some_2 (ac_distr x) p ltac:(lia)) as [y Hy].
  pose proof (slice_lookup _ _ _ _ p Hs ltac:(lia)) as Hsl. rewrite Hy in Hsl. rewrite (Nat.mul_comm np k), Hsl. cbn [mbind option_bind].
  destruct (lookup_lt_is_Some_2 rates (np * self + p)%nat ltac:(lia)) as [z Hz]. rewrite Hz, Hy. done.
Qed.
Lemma ctrl_violated_ok c w cl k x self : crel 0 np c (aw_ctrls w) (aw_current w) cl → aw_ctrls w !! k = Some x →
  (self < length bhp)%nat → (np * self + np <= length res)%nat → (np * self + np <= length surf)%nat →
  ∃ b : bool, ctrl_violated pu bhp res surf self (aw_type w) c k = Some b ∧ (b = true ↔ violated np bhp res surf self (w : awell) x).
Proof.
  intros Hc Hk Hb Hr Hs. destruct (cr_get _ _ _ _ _ _ Hc k x Hk) as (E1 & E2 & _). unfold ctrl_violated. rewrite E1. cbn [mbind option_bind]. rewrite E2. cbn [mbind option_bind].
  unfold violated. destruct (ac_type x).
  - destruct (lookup_lt_is_Some_2 bhp self Hb) as [b Eb]. rewrite Eb. cbn [mbind option_bind]. eexists. split; [done|].
    change (default 0 (Some b)) with b. destruct (aw_type w).
    + rewrite decide_False by done. destruct (Rlt_dec _ _); split; intros; try done; lra.
    + rewrite decide_True by done. destruct (Rgt_dec _ _); split; intros; try done; lra.
  - rewrite (weighted_ok c (aw_ctrls w) (aw_current w) cl k x) by done. cbn [mbind option_bind]. eexists. split; [done|].
    set (r := counted_rate _ _ _ _). cbn zeta. replace (Rmax (Rabs r) (Rabs (ac_target x)) / 1000000) with (Rmax (Rabs r) (Rabs (ac_target x)) * (1 / 1000000)) by lra.
    destruct (Rgt_dec _ _); split; intros; try done; lra.
  - rewrite (weighted_ok c (aw_ctrls w) (aw_current w) cl k x) by done. cbn [mbind option_bind]. eexists. split; [done|].
    destruct (Rgt_dec _ _); split; intros; try done; lra.
Qed.
Definition first_violated (self : nat) (gci : Z) (w : awell) (b k : nat) : Prop :=
  (b <= k)%nat ∧ (∃ x, aw_ctrls w !! k = Some x ∧ violated np bhp res surf self w x) ∧ checked gci w k ∧
  ∀ j x, (b <= j < k)%nat → aw_ctrls w !! j = Some x → checked gci w j → ¬ violated np bhp res surf self w x.
Lemma find_violated_ok c w cl self gci : crel 0 np c (aw_ctrls w) (aw_current w) cl →
  (self < length bhp)%nat → (np * self + np <= length res)%nat → (np * self + np <= length surf)%nat →
  ∀ m k, (k + m = length (aw_ctrls w))%nat →
  ∃ r, find_violated pu bhp res surf self gci (aw_type w) c m k = Some r ∧
    match r with
    | Some j => first_violated self gci w k j
    | None => ∀ j x, (k <= j)%nat → aw_ctrls w !! j = Some x → checked gci w j → ¬ violated np bhp res surf self w x
    end.
Proof.
  intros Hc Hb Hr Hs. induction m as [|m IH]; intros k Hk; cbn [find_violated].
  - exists None. split; [done|]. intros j x Hj Hx. apply lookup_lt_Some in Hx. lia.
  - destruct (IH (k + 1)%nat ltac:(lia)) as (r & E & Hres).
    destruct (lookup_lt_is_Some_2 (aw_ctrls w) k ltac:(lia)) as [x Hx].
    assert (Hskip : ¬ (checked gci w k ∧ violated np bhp res surf self w x) →
      match r with
      | Some j => first_violated self gci w k j
      | None => ∀ j x, (k <= j)%nat → aw_ctrls w !! j = Some x → checked gci w j → ¬ violated np bhp res surf self w x
      end).
    { intros Hno. destruct r as [j|].
      - destruct Hres as (R1 & R2 & R3 & R4). split; [lia|]. split; [done|]. split; [done|]. intros i y Hi Hy Hch.
        destruct (decide (i = k)) as [->|]; [|apply (R4 i); [lia|done..]]. rewrite Hx in Hy. injection Hy as ->. tauto.
      - intros i y Hi Hy Hch. destruct (decide (i = k)) as [->|]; [|apply (Hres i); [lia|done..]]. rewrite Hx in Hy. injection Hy as ->. tauto. }
    rewrite (cr_cur _ _ _ _ _ _ Hc). destruct (decide (_ ∨ _)) as [Hd|Hd].
    + exists r. split; [done|]. apply Hskip. intros [[H1 H2] _]. tauto.
    + assert (Hch : checked gci w k) by (split; tauto).
      destruct (ctrl_violated_ok c w cl k x self Hc Hx Hb Hr Hs) as (v & Ev & Hv). rewrite Ev. cbn [mbind option_bind]. destruct v.
      * exists (Some k). split; [done|]. split; [lia|]. split; [exists x; split; [done|by apply Hv]|]. split; [done|]. intros; lia.
      * exists r. split; [done|]. apply Hskip. intros [_ H]. by apply Hv in H.
Qed.

(** The rates a tree reports. *)
Definition sums (a : list (awell * bool)) (l : list leaf) (sm : summed) : Prop :=
  (length (sm_res_inj sm) = 3%nat ∧ length (sm_res_prod sm) = 3%nat ∧ length (sm_surf_inj sm) = 3%nat ∧ length (sm_surf_prod sm) = 3%nat) ∧
  ∀ i, (i < np)%nat → sm_res_inj sm !! i = Some (total np a INJECTOR res l i) ∧ sm_res_prod sm !! i = Some (total np a PRODUCER res l i) ∧
    sm_surf_inj sm !! i = Some (total np a INJECTOR surf l i) ∧ sm_surf_prod sm !! i = Some (total np a PRODUCER surf l i).
Lemma zero3 i : (i < 3)%nat → [0; 0; 0] !! i = Some 0.
Proof. destruct i as [|[|[|]]]; intros; try done; lia. Qed.
Lemma sums0 a : sums a [] summed0.
Proof. pose proof (pk_num _ Hpu). split; [done|]. intros i Hi. cbn. unfold total. cbn [rsum]. rewrite zero3 by lia. done. Qed.
Lemma add3_lookup x y i u v : x !! i = Some u → y !! i = Some v → add3 x y !! i = Some (u + v).
Proof. intros E1 E2. unfold add3. rewrite lookup_zip_with, E1. cbn [mbind option_bind]. by rewrite E2. Qed.
Lemma sums_app a l m x y : sums a l x → sums a m y → sums a (l ++ m) (summed_add x y).
Proof.
  intros [(L1 & L2 & L3 & L4) Hx] [(M1 & M2 & M3 & M4) Hy]. split.
  - cbn. unfold add3. rewrite !zip_with_length. lia.
  - intros i Hi. destruct (Hx i Hi) as (X1 & X2 & X3 & X4). destruct (Hy i Hi) as (Y1 & Y2 & Y3 & Y4). unfold total in *. rewrite !rsum_app. cbn.
    split_and!; by apply add3_lookup.
Qed.
Lemma report_ok (a : list (awell * bool)) lf w cl : a !! l_self lf = Some (w, cl) →
  (np * l_self lf + np <= length res)%nat → (np * l_self lf + np <= length surf)%nat →
  ∃ sm, report pu res surf (l_self lf) (aw_type w) summed0 = Some sm ∧ sums a [lf] sm.
Proof.
  intros Ew Hr Hs. pose proof (pk_num _ Hpu) as Hn. unfold report. rewrite !slice_Some by lia. cbn [mbind option_bind].
  set (r := take np (drop _ res)). set (q := take np (drop _ surf)).
  assert (Lr : length r = np) by (subst r; rewrite take_length, drop_length; lia). assert (Lq : length q = np) by (subst q; rewrite take_length, drop_length; lia).
  assert (Hrl : ∀ i, (i < np)%nat → r !! i = Some (at_well np (l_self lf) res i)).
  { intros i Hi. subst r. rewrite lookup_take, lookup_drop by lia. unfold at_well. by destruct (lookup_lt_is_Some_2 res (np * l_self lf + i)%nat ltac:(lia)) as [z ->]. }
  assert (Hql : ∀ i, (i < np)%nat → q !! i = Some (at_well np (l_self lf) surf i)).
  { intros i Hi. subst q. rewrite lookup_take, lookup_drop by lia. unfold at_well. by destruct (lookup_lt_is_Some_2 surf (np * l_self lf + i)%nat ltac:(lia)) as [z ->]. }
  assert (Hcp : ∀ v, length v = np → ∃ z, memcpy [0; 0; 0] 0 v = Some z ∧ length z = 3%nat ∧ ∀ i, (i < np)%nat → z !! i = v !! i).
  { intros v Hv. destruct (memcpy_is_Some [0; 0; 0] 0 v) as [z E]; [rewrite Hv; cbn; lia|]. exists z. split; [done|]. split; [by rewrite (memcpy_length _ _ _ _ E)|].
    intros i Hi. apply (memcpy_lookup_mid _ _ _ _ i E). lia. }
  destruct (Hcp r Lr) as (zr & Er & Lzr & Hzr). destruct (Hcp q Lq) as (zq & Eq & Lzq & Hzq). unfold total.
  destruct (decide (aw_type w = INJECTOR)) as [Et|Et]; cbn [sm_res_inj sm_surf_inj sm_res_prod sm_surf_prod summed0]; rewrite Er; cbn [mbind option_bind]; rewrite Eq; cbn [mbind option_bind];
    (eexists; split; [done|]; split; [done|]); intros i Hi; cbn [sm_res_inj sm_surf_inj sm_res_prod sm_surf_prod rsum]; unfold total; cbn [rsum]; unfold has_type; rewrite Ew;
    rewrite Hzr, Hzq, Hrl, Hql, zero3 by lia.
  - rewrite Et, !(bool_decide_eq_true_2 (INJECTOR = INJECTOR)), !(bool_decide_eq_false_2 (INJECTOR = PRODUCER)) by done.
    split_and!; f_equal; lra.
  - destruct (aw_type w); [done|]. rewrite !(bool_decide_eq_true_2 (PRODUCER = PRODUCER)), !(bool_decide_eq_false_2 (PRODUCER = INJECTOR)) by done.
    split_and!; f_equal; lra.
Qed.

Lemma well_conditions_ok W a lf w cl : rel 0 W a → w_np W = np → a !! l_self lf = Some (w, cl) → measured np bhp res surf [lf] →
  ∃ sm, sums a [lf] sm ∧
    (observes np bhp res surf (l_self lf) (l_gci lf) w ∧ well_conditions pu bhp res surf (l_self lf) (l_gci lf) summed0 W = Some (true, sm, W) ∨
     ∃ k W', first_violated (l_self lf) (l_gci lf) w 0 k ∧ well_conditions pu bhp res surf (l_self lf) (l_gci lf) summed0 W = Some (false, sm, W') ∧
       w_np W' = np ∧ rel 0 W' (<[l_self lf := (with_ctrls w (aw_ctrls w) (Z.of_nat k), cl)]> a)).
Proof.
  intros HR Hn Ew Hm. destruct (Hm lf) as (Hb & Hr & Hs); [by left|].
  destruct (r_well _ _ _ HR _ w cl Ew) as (Ety & _ & _ & _ & _ & _ & c & Ec & Hc). rewrite Hn in Hc.
  destruct (report_ok a lf w cl Ew Hr Hs) as (sm & Esm & Hsm). exists sm. split; [done|].
  unfold well_conditions. rewrite Ety. cbn [mbind option_bind]. rewrite Esm. cbn [mbind option_bind]. unfold get_ctrl. rewrite Ec. cbn [mbind option_bind].
  destruct (find_violated_ok c w cl (l_self lf) (l_gci lf) Hc Hb Hr Hs (c_num c) 0) as (r & E & Hres); [by rewrite (cr_num _ _ _ _ _ _ Hc)|].
  rewrite E. cbn [mbind option_bind]. destruct r as [k|].
  - right. destruct Hres as (R1 & (x & Hx & R2) & R3). exists k.
    destruct (set_current_correct 0 (l_self lf) (Z.of_nat k) W a w cl HR Ew) as (W' & E' & N' & R').
    { apply lookup_lt_Some in Hx. lia. }
    exists W'. split; [split; [done|]; split; [by exists x|]; done|]. rewrite E'. cbn [mbind option_bind]. split; [done|]. split; [by rewrite N'|done].
  - left. split; [|done]. intros k x Hx Hch. apply (Hres k); [lia|done..].
Qed.

(** ** The limits of a group *)
Lemma used_pos p : pu_used pu !! phase_index p = Some 1%nat → ∃ i, pu_pos pu !! phase_index p = Some i ∧ (i < np)%nat.
Proof. intros H. destruct (pk_all _ Hpu p) as (u & i & _ & E & _). exists i. split; [done|]. by eapply (pk_pos _ Hpu). Qed.
Lemma rates_sum_ok (l : list R) (f : nat → R) : (∀ i, (i < np)%nat → l !! i = Some (f i)) → rates_sum pu l = Some (rsum f (seq 0 np)).
Proof.
  intros H. unfold rates_sum. destruct (mapM_seq_sum (λ p, l !! p) f np 0) as (m & -> & E); [intros; apply H; lia|]. cbn [mbind option_bind]. by rewrite E.
Qed.
Lemma pmode_rate_ok m (r s : list R) (fr fs : nat → R) : can_request pu (ReqP m) → (∀ i, (i < np)%nat → r !! i = Some (fr i)) → (∀ i, (i < np)%nat → s !! i = Some (fs i)) →
  rate_by_pmode pu r s m = Some (mode_rate pu m fr fs).
Proof.
  intros Hc Hr Hs.
  assert (H1 : ∀ p, counted (ReqP m) p = true → m ≠ P_RESV → ∃ i, pos_of pu p = Some i ∧ s !! i = Some (fs i) ∧ pu_pos pu !! phase_index p = Some i).
  { intros p Hp Hm. destruct (used_pos p) as (i & E & Hi); [destruct m; try done; by apply Hc|]. exists i. unfold pos_of. split; [done|]. split; [by apply Hs|done]. }
  destruct m; try done; cbn [rate_by_pmode mode_rate].
  - destruct (H1 Liquid) as (i & -> & E & ->); done.
  - destruct (H1 Aqua) as (i & -> & E & ->); done.
  - destruct (H1 Vapour) as (i & -> & E & ->); done.
  - destruct (H1 Liquid) as (i & -> & E & ->); try done. cbn [mbind option_bind]. rewrite E. cbn [mbind option_bind].
    destruct (H1 Aqua) as (j & -> & E' & ->); try done. cbn [mbind option_bind]. by rewrite E'.
  - by apply rates_sum_ok.
Qed.
Lemma prod_violated_ok ps a l sm : sums a l sm → (∀ m t, prod_limit ps m = Some t → 0 <= t → can_request pu (ReqP m)) →
  ∀ ms, (∀ m, m ∈ ms → is_Some (prod_limit ps m)) → ∃ r, prod_violated pu ps sm ms = Some r ∧
  match r with
  | Some (m, t) => exceeds_prod pu a res surf ps l m t ∧ ∃ ms1 ms2, ms = ms1 ++ m :: ms2 ∧ ∀ m' t', m' ∈ ms1 → ¬ exceeds_prod pu a res surf ps l m' t'
  | None => ∀ m t, m ∈ ms → ¬ exceeds_prod pu a res surf ps l m t
  end.
Proof.
  intros [_ Hsm] Hss. induction ms as [|m ms IH]; intros Hms; cbn [prod_violated].
  { exists None. split; [done|]. intros m t Hm. by apply elem_of_nil in Hm. }
  destruct IH as (r & E & Hr); [intros; apply Hms; by right|]. destruct (Hms m) as [t Ht]; [by left|].
  assert (Hskip : (∀ t, ¬ exceeds_prod pu a res surf ps l m t) → match r with
    | Some (m0, t) => exceeds_prod pu a res surf ps l m0 t ∧ ∃ ms1 ms2, m :: ms = ms1 ++ m0 :: ms2 ∧ ∀ m' t', m' ∈ ms1 → ¬ exceeds_prod pu a res surf ps l m' t'
    | None => ∀ m0 t, m0 ∈ m :: ms → ¬ exceeds_prod pu a res surf ps l m0 t end).
  { intros Hno. destruct r as [[m0 t0]|].
    - destruct Hr as (R1 & ms1 & ms2 & -> & R2). split; [done|]. exists (m :: ms1), ms2. split; [done|]. intros m' t' Hm'. apply elem_of_cons in Hm' as [->|Hm']; auto.
    - intros m0 t0 Hm0. apply elem_of_cons in Hm0 as [->|Hm0]; auto. }
  destruct (decide (ps_mode ps = m)) as [Em|Em].
  { exists r. split; [done|]. apply Hskip. intros t' (_ & H & _). done. }
  assert (ptarget ps m = Some t) as ->.
  { clear -Ht. destruct m; done. }
  cbn [mbind option_bind]. destruct (Rge_dec t 0) as [Ht0|Ht0].
  - rewrite (pmode_rate_ok m _ _ (total np a PRODUCER res l) (total np a PRODUCER surf l)); [|by apply (Hss m t); [done|lra]|intros i Hi; by apply Hsm..].
    cbn [mbind option_bind]. destruct (Rgt_dec _ _) as [Hgt|Hgt].
    + eexists. split; [done|]. split; [split_and!; try done; lra|]. exists [], ms. split; [done|]. intros m' t' H'. by apply elem_of_nil in H'.
    + exists r. split; [done|]. apply Hskip. intros t' (H1 & _ & _ & H2). rewrite Ht in H1. injection H1 as <-. lra.
  - exists r. split; [done|]. apply Hskip. intros t' (H1 & _ & H2 & _). rewrite Ht in H1. injection H1 as <-. lra.
Qed.
Lemma inj_violated_ok sp a l sm : sums a l sm →
  ∀ ms, (∀ m, m ∈ ms → is_Some (inj_limit sp m)) → ∃ r, inj_violated pu sp sm ms = Some r ∧
  match r with
  | Some (m, t) => exceeds_inj pu a res surf sp l m t ∧ ∃ ms1 ms2, ms = ms1 ++ m :: ms2 ∧ ∀ m' t', m' ∈ ms1 → ¬ exceeds_inj pu a res surf sp l m' t'
  | None => ∀ m t, m ∈ ms → ¬ exceeds_inj pu a res surf sp l m t
  end.
Proof.
  intros [_ Hsm]. induction ms as [|m ms IH]; intros Hms; cbn [inj_violated].
  { exists None. split; [done|]. intros m t Hm. by apply elem_of_nil in Hm. }
  destruct IH as (r & E & Hr); [intros; apply Hms; by right|]. destruct (Hms m) as [t Ht]; [by left|].
  assert (Hskip : (∀ t, ¬ exceeds_inj pu a res surf sp l m t) → match r with
    | Some (m0, t) => exceeds_inj pu a res surf sp l m0 t ∧ ∃ ms1 ms2, m :: ms = ms1 ++ m0 :: ms2 ∧ ∀ m' t', m' ∈ ms1 → ¬ exceeds_inj pu a res surf sp l m' t'
    | None => ∀ m0 t, m0 ∈ m :: ms → ¬ exceeds_inj pu a res surf sp l m0 t end).
  { intros Hno. destruct r as [[m0 t0]|].
    - destruct Hr as (R1 & ms1 & ms2 & -> & R2). split; [done|]. exists (m :: ms1), ms2. split; [done|]. intros m' t' Hm'. apply elem_of_cons in Hm' as [->|Hm']; auto.
    - intros m0 t0 Hm0. apply elem_of_cons in Hm0 as [->|Hm0]; auto. }
  destruct (decide (is_mode sp = m)) as [Em|Em].
  { exists r. split; [done|]. apply Hskip. intros t' (_ & H & _). done. }
  assert (itarget sp m = Some t) as ->.
  { clear -Ht. destruct m; done. }
  cbn [mbind option_bind]. destruct (Rge_dec t 0) as [Ht0|Ht0].
  - assert (rate_by_imode pu (sm_res_inj sm) (sm_surf_inj sm) m = Some (imode_rate pu m (total np a INJECTOR res l) (total np a INJECTOR surf l))) as ->.
    { destruct m; try done; cbn [rate_by_imode imode_rate]; apply rates_sum_ok; intros i Hi; by apply Hsm. }
    cbn [mbind option_bind]. destruct (Rgt_dec _ _) as [Hgt|Hgt].
    + eexists. split; [done|]. split; [split_and!; try done; lra|]. exists [], ms. split; [done|]. intros m' t' H'. by apply elem_of_nil in H'.
    + exists r. split; [done|]. apply Hskip. intros t' (H1 & _ & _ & H2). rewrite Ht in H1. injection H1 as <-. lra.
  - exists r. split; [done|]. apply Hskip. intros t' (H1 & _ & H2 & _). rewrite Ht in H1. injection H1 as <-. lra.
Qed.
Lemma prod_all ps : ∀ m, m ∈ prod_order ↔ is_Some (prod_limit ps m).
Proof.
  intros m. split.
  - unfold prod_order. rewrite !elem_of_cons, elem_of_nil. intros [->|[->|[->|[->|[->|[]]]]]]; by eexists.
  - destruct m; intros [t E]; try done; unfold prod_order; rewrite !elem_of_cons; tauto.
Qed.
Lemma inj_all sp : ∀ m, m ∈ inj_order ↔ is_Some (inj_limit sp m).
Proof.
  intros m. split.
  - unfold inj_order. rewrite !elem_of_cons, elem_of_nil. intros [->|[->|[]]]; by eexists.
  - destruct m; intros [t E]; try done; unfold inj_order; rewrite !elem_of_cons; tauto.
Qed.

(** ** Trees *)
Definition go_cond := fix go (l : list node) (csm : summed) (s : wells * list bool) : option (bool * summed * list node * (wells * list bool)) :=
  match l with
  | [] => Some (true, csm, [], s)
  | c :: l =>
    '(b, x, c, s) ← conditions_met J pu bhp res surf c summed0 s;
    if (b : bool) then
      '(b, csm, l, s) ← go l (summed_add csm x) s;
      Some (b, csm, c :: l, s)
    else Some (false, csm, c :: l, s)
  end.
Lemma conditions_group ps sp ch sm s : conditions_met J pu bhp res surf (Group ps sp ch) sm s =
  ('(b, csm, ch', s) ← go_cond ch summed0 s;
   if (b : bool) then
     '(b, n, s) ← group_conditions J pu res surf (Group ps sp ch') csm s;
     Some (b, if (b : bool) then summed_add sm csm else sm, n, s)
   else Some (false, sm, Group ps sp ch', s)).
Proof. reflexivity. Qed.
Lemma go_cond_cons c l csm s : go_cond (c :: l) csm s =
  ('(b, x, c, s) ← conditions_met J pu bhp res surf c summed0 s;
   if (b : bool) then '(b, csm, l, s) ← go_cond l (summed_add csm x) s; Some (b, csm, c :: l, s)
   else Some (false, csm, c :: l, s)).
Proof. reflexivity. Qed.

(** If nothing is violated, nothing changes, and the rates are the sums. *)
Lemma measured_app l m : measured np bhp res surf (l ++ m) ↔ measured np bhp res surf l ∧ measured np bhp res surf m.
Proof. unfold measured. split; [intros H; split; intros lf Hlf; apply H, elem_of_app; auto|]. intros [H1 H2] lf Hlf. apply elem_of_app in Hlf as [?|?]; auto. Qed.
Definition present (a : list (awell * bool)) (l : list leaf) : Prop := ∀ lf, lf ∈ l → is_Some (a !! l_self lf).
Lemma present_app a l m : present a (l ++ m) ↔ present a l ∧ present a m.
Proof. unfold present. split; [intros H; split; intros lf Hlf; apply H, elem_of_app; auto|]. intros [H1 H2] lf Hlf. apply elem_of_app in Hlf as [?|?]; auto. Qed.

Lemma group_true ps sp ch a csm (s : wells * list bool) : sums a (leaves (Group ps sp ch)) csm → 
  (∀ m t, prod_limit ps m = Some t → 0 <= t → can_request pu (ReqP m)) →
  (∀ m t, ¬ exceeds_inj pu a res surf sp (leaves (Group ps sp ch)) m t) → (∀ m t, ¬ exceeds_prod pu a res surf ps (leaves (Group ps sp ch)) m t) →
  group_conditions J pu res surf (Group ps sp ch) csm s = Some (true, Group ps sp ch, s).
Proof.
  intros Hs Hss Hi Hp. unfold group_conditions.
  destruct (inj_violated_ok sp a _ csm Hs [I_RATE; I_RESV]) as ([[m t]|] & -> & Hr); [apply inj_all|by destruct (Hi m t); destruct Hr|]. cbn [mbind option_bind].
  destruct (prod_violated_ok ps a _ csm Hs Hss [ORAT; WRAT; GRAT; LRAT; P_RESV]) as ([[m t]|] & -> & Hr'); [apply prod_all|by destruct (Hp m t); destruct Hr'|]. done.
Qed.
Lemma satisfied_true n : ∀ W a o, rel 0 W a → w_np W = np → present a (leaves n) → measured np bhp res surf (leaves n) → sensible pu n →
  satisfied pu bhp res surf a n → ∃ sm, conditions_met J pu bhp res surf n summed0 (W, o) = Some (true, sm, n, (W, o)) ∧ sums a (leaves n) sm.
Proof.
  induction n as [ps sp self gci shut|ps sp ch IH] using node_rect'; intros W a o HR Hn Hpr Hm Hss Hsat; inversion Hsat; subst.
  - destruct (Hpr (Leaf ps sp self gci shut)) as [[w cl] Ew]; [by left|]. cbn [conditions_met fst snd].
    destruct (well_conditions_ok W a (Leaf ps sp self gci shut) w cl HR Hn Ew Hm) as (sm & Hsm & [[_ E]|(k & W' & Hv & _)]); cbn [l_self l_gci] in *.
    + rewrite E. cbn [mbind option_bind]. by exists sm.
    + destruct Hv as (_ & (x & Hx & Hv) & Hch & _). match goal with H : ∀ w cl, a !! self = _ → _ |- _ => by destruct (H w cl Ew k x Hx Hch) end.
  - inversion Hss; subst. rewrite conditions_group.
    match goal with H : Forall (satisfied _ _ _ _ _) _ |- _ => rename H into HS end. match goal with H : Forall (sensible _) _ |- _ => rename H into HSS end.
    assert (∀ csm l, sums a l csm → ∃ csm', go_cond ch csm (W, o) = Some (true, csm', ch, (W, o)) ∧ sums a (l ++ concat (map leaves ch)) csm') as Hgo.
    { cbn [leaves] in Hpr, Hm. clear -IH HR Hn Hpr Hm HS HSS. induction IH as [|c ch Hc _ IHl]; intros csm l Hl.
      - exists csm. cbn. by rewrite app_nil_r.
      - cbn [map concat] in *. apply Forall_cons in HS as [HS1 HS2]. apply Forall_cons in HSS as [HSS1 HSS2].
        apply present_app in Hpr as [Hpr1 Hpr2]. apply measured_app in Hm as [Hm1 Hm2].
        destruct (Hc W a o HR Hn Hpr1 Hm1 HSS1 HS1) as (x & E & Hx). rewrite go_cond_cons, E. cbn [mbind option_bind].
        destruct (IHl Hpr2 Hm2 HS2 HSS2 (summed_add csm x) (l ++ leaves c)) as (csm' & E' & Hs'); [by apply sums_app|].
        rewrite E'. cbn [mbind option_bind]. exists csm'. split; [done|]. by rewrite app_assoc. }
    destruct (Hgo summed0 [] (sums0 a)) as (csm & E & Hs). rewrite E. cbn [mbind option_bind]. cbn [app] in Hs.
    rewrite (group_true ps sp ch a csm) by done. cbn [mbind option_bind]. eexists. split; [done|].
    apply (sums_app a [] _ summed0); [apply sums0|exact Hs].
Qed.
Lemma true_satisfied n : ∀ W a o r n' s', rel 0 W a → w_np W = np → present a (leaves n) → measured np bhp res surf (leaves n) → sensible pu n →
  conditions_met J pu bhp res surf n summed0 (W, o) = Some (true, r, n', s') → satisfied pu bhp res surf a n.
Proof.
  induction n as [ps sp self gci shut|ps sp ch IH] using node_rect'; intros W a o r n' s' HR Hn Hpr Hm Hss E.
  - constructor. intros w cl Ew. cbn [conditions_met fst snd] in E.
    destruct (well_conditions_ok W a (Leaf ps sp self gci shut) w cl HR Hn Ew Hm) as (sm & Hsm & [[Ho _]|(k & W' & Hv & E' & _)]); [done|].
    cbn [l_self l_gci] in E'. rewrite E' in E. done.
  - inversion Hss; subst. match goal with H : Forall (sensible _) _ |- _ => rename H into HSS end. rewrite conditions_group in E.
    destruct (go_cond ch summed0 (W, o)) as [[[[b csm] ch'] s1]|] eqn:Eg; [|done]. cbn [mbind option_bind] in E. destruct b; [|done].
    assert (Forall (satisfied pu bhp res surf a) ch) as HS.
    { cbn [leaves] in Hpr, Hm. clear E. revert csm ch' Eg. generalize summed0. clear -IH HR Hn Hpr Hm HSS Hpu. induction IH as [|c ch Hc _ IHl]; intros csm0 csm ch' Eg; [done|].
      cbn [map concat] in *. apply Forall_cons in HSS as [HSS1 HSS2].
      apply present_app in Hpr as [Hpr1 Hpr2]. apply measured_app in Hm as [Hm1 Hm2]. rewrite go_cond_cons in Eg.
      destruct (conditions_met _ _ _ _ _ c _ _) as [[[[b x] c'] s2]|] eqn:Ec; [|done]. cbn [mbind option_bind] in Eg. destruct b; [|done].
      pose proof (Hc W a o _ _ _ HR Hn Hpr1 Hm1 HSS1 Ec) as Hsc. destruct (satisfied_true c W a o HR Hn Hpr1 Hm1 HSS1 Hsc) as (x' & Ec' & _).
      rewrite Ec in Ec'. injection Ec' as -> -> ->. destruct (go_cond ch _ (W, o)) as [[[[b csm1] ch1] s3]|] eqn:Eg1; [|done]. cbn [mbind option_bind] in Eg.
      injection Eg as -> -> <- ->. constructor; [done|]. by eapply IHl. }
    assert (∀ csm0 l, sums a l csm0 → ∃ csm', go_cond ch csm0 (W, o) = Some (true, csm', ch, (W, o)) ∧ sums a (l ++ concat (map leaves ch)) csm') as Hgo.
    { cbn [leaves] in Hpr, Hm. clear -HR Hn Hpr Hm HS HSS Hpu. induction ch as [|c ch IHl]; intros csm l Hl.
      - exists csm. cbn. by rewrite app_nil_r.
      - cbn [map concat] in *. apply Forall_cons in HS as [HS1 HS2]. apply Forall_cons in HSS as [HSS1 HSS2].
        apply present_app in Hpr as [Hpr1 Hpr2]. apply measured_app in Hm as [Hm1 Hm2].
        destruct (satisfied_true c W a o HR Hn Hpr1 Hm1 HSS1 HS1) as (x & E & Hx). rewrite go_cond_cons, E. cbn [mbind option_bind].
        destruct (IHl Hpr2 Hm2 HSS2 HS2 (summed_add csm x) (l ++ leaves c)) as (csm' & E' & Hs'); [by apply sums_app|].
        rewrite E'. cbn [mbind option_bind]. exists csm'. split; [done|]. by rewrite app_assoc. }
    destruct (Hgo summed0 [] (sums0 a)) as (csm' & E' & Hs). rewrite Eg in E'. injection E' as -> -> ->. cbn [app] in Hs.
    unfold group_conditions in E.
    destruct (inj_violated_ok sp a _ csm' Hs [I_RATE; I_RESV]) as (ri & Ei & Hr); [apply inj_all|]. rewrite Ei in E. cbn [mbind option_bind] in E.
    destruct ri as [[m t]|].
    { destruct (apply_control _ _ _ _ _ _ _) as [[[|] s3]|]; done. }
    destruct (prod_violated_ok ps a _ csm' Hs ltac:(done) [ORAT; WRAT; GRAT; LRAT; P_RESV]) as (rp & Ep & Hr'); [apply prod_all|]. rewrite Ep in E. cbn [mbind option_bind] in E.
    destruct rp as [[m t]|].
    { destruct (ps_proc ps); cbn [mbind option_bind] in E; try done.
      - destruct (apply_control _ _ _ _ _ _ _) as [[? ?]|]; done.
      - destruct (worst_offending _ _ _ _ _) as [[[p|] ?]|]; try done. cbn [mbind option_bind] in E. destruct (shut_at _ _ _ _) as [[? ?]|]; done. }
    constructor; [done|..]; intros m t Hx; [apply (Hr m t); [apply (inj_all sp)|done]|apply (Hr' m t); [apply (prod_all ps)|done]]; destruct Hx as (-> & _); by eexists.
Qed.

(** A tree stops at the first child that is not satisfied. *)
Lemma go_cond_true ch W a o : rel 0 W a → w_np W = np → present a (concat (map leaves ch)) → measured np bhp res surf (concat (map leaves ch)) → Forall (sensible pu) ch →
  Forall (satisfied pu bhp res surf a) ch → ∀ csm0 l, sums a l csm0 →
  ∃ csm', go_cond ch csm0 (W, o) = Some (true, csm', ch, (W, o)) ∧ sums a (l ++ concat (map leaves ch)) csm'.
Proof.
  intros HR Hn Hpr Hm HSS HS. induction ch as [|c ch IHl]; intros csm l Hl.
  - exists csm. cbn. by rewrite app_nil_r.
  - cbn [map concat] in *. apply Forall_cons in HS as [HS1 HS2]. apply Forall_cons in HSS as [HSS1 HSS2].
    apply present_app in Hpr as [Hpr1 Hpr2]. apply measured_app in Hm as [Hm1 Hm2].
    destruct (satisfied_true c W a o HR Hn Hpr1 Hm1 HSS1 HS1) as (x & E & Hx). rewrite go_cond_cons, E. cbn [mbind option_bind].
    destruct (IHl Hpr2 Hm2 HSS2 HS2 (summed_add csm x) (l ++ leaves c)) as (csm' & E' & Hs'); [by apply sums_app|].
    rewrite E'. cbn [mbind option_bind]. exists csm'. split; [done|]. by rewrite app_assoc.
Qed.
Lemma first_failing ps sp ch1 c ch2 sm W a o x c' s' : rel 0 W a → w_np W = np →
  present a (concat (map leaves ch1)) → measured np bhp res surf (concat (map leaves ch1)) → Forall (sensible pu) ch1 →
  Forall (satisfied pu bhp res surf a) ch1 → conditions_met J pu bhp res surf c summed0 (W, o) = Some (false, x, c', s') →
  conditions_met J pu bhp res surf (Group ps sp (ch1 ++ c :: ch2)) sm (W, o) = Some (false, sm, Group ps sp (ch1 ++ c' :: ch2), s').
Proof.
  intros HR Hn Hpr Hm HSS HS Ec. rewrite conditions_group.
  assert (∃ csm, go_cond (ch1 ++ c :: ch2) summed0 (W, o) = Some (false, csm, ch1 ++ c' :: ch2, s')) as (csm & ->); [|done].
  generalize summed0 at 1. revert Hpr Hm HSS HS. induction ch1 as [|c1 ch1 IH]; intros Hpr Hm HSS HS csm.
  - cbn [app]. rewrite go_cond_cons, Ec. by eexists.
  - cbn [map concat] in *. apply Forall_cons in HS as [HS1 HS2]. apply Forall_cons in HSS as [HSS1 HSS2].
    apply present_app in Hpr as [Hpr1 Hpr2]. apply measured_app in Hm as [Hm1 Hm2]. cbn [app].
    destruct (satisfied_true c1 W a o HR Hn Hpr1 Hm1 HSS1 HS1) as (y & E & Hx). rewrite go_cond_cons, E. cbn [mbind option_bind].
    destruct (IH Hpr2 Hm2 HSS2 HS2 (summed_add csm y)) as (csm' & ->). by eexists.
Qed.
Lemma cond_reduce ps sp ch W a o : let n := Group ps sp ch in rel 0 W a → w_np W = np → present a (leaves n) → measured np bhp res surf (leaves n) → Forall (sensible pu) ch →
  Forall (satisfied pu bhp res surf a) ch → ∃ csm, sums a (leaves n) csm ∧ conditions_met J pu bhp res surf n summed0 (W, o) =
    ('(b, n', s) ← group_conditions J pu res surf n csm (W, o); Some (b, if (b : bool) then summed_add summed0 csm else summed0, n', s)).
Proof.
  intros n HR Hn Hpr Hm HSS HS. destruct (go_cond_true ch W a o HR Hn Hpr Hm HSS HS summed0 [] (sums0 a)) as (csm & E & Hs).
  exists csm. split; [done|]. subst n. rewrite conditions_group, E. done.
Qed.
Lemma order_inj {M} (order : list M) (P : M → R → Prop) m t m' t' : (∀ m t t', P m t → P m t' → t = t') →
  first_exceeded order P m t → first_exceeded order P m' t' → m = m' ∧ t = t'.
Proof.
  intros Hf (H1 & b1 & a1 & E1 & N1) (H2 & b2 & a2 & E2 & N2). assert (m = m'); [|subst; split; [done|by eapply Hf]].
  rewrite E1 in E2. clear E1. revert b2 E2 N2. induction b1 as [|x b1 IH]; intros [|y b2] E N2; cbn in E.
  - congruence.
  - injection E as <- E. destruct (N2 m t); [by left|done].
  - injection E as -> E. destruct (N1 m' t'); [by left|done].
  - injection E as -> E. apply (IH ltac:(intros; apply N1; by right) b2 E). intros; apply N2; by right.
Qed.
Lemma group_prod ps sp ch a csm (s : wells * list bool) m t : let n := Group ps sp ch in sums a (leaves n) csm →
  (∀ m t, prod_limit ps m = Some t → 0 <= t → can_request pu (ReqP m)) →
  (∀ m t, ¬ exceeds_inj pu a res surf sp (leaves n) m t) → first_exceeded prod_order (exceeds_prod pu a res surf ps (leaves n)) m t →
  group_conditions J pu res surf n csm s =
    match ps_proc ps with
    | WELL_P => '(p, _) ← worst_offending pu res surf m n; p ← p; '(n, s) ← shut_at J p n s; Some (false, n, s)
    | RATE_P => '(n, s) ← apply_control J pu (ReqP m) t true n s; Some (false, n, s)
    | NONE_P => Some (false, n, s)
    end.
Proof.
  intros n Hs Hss Hi Hp. unfold group_conditions. subst n.
  destruct (inj_violated_ok sp a _ csm Hs [I_RATE; I_RESV]) as ([[m' t']|] & -> & Hr); [apply inj_all|by destruct (Hi m' t'); destruct Hr|]. cbn [mbind option_bind].
  destruct (prod_violated_ok ps a _ csm Hs Hss [ORAT; WRAT; GRAT; LRAT; P_RESV]) as ([[m' t']|] & -> & Hr'); [apply prod_all|..].
  - destruct (order_inj prod_order (exceeds_prod pu a res surf ps (leaves (Group ps sp ch))) m t m' t') as [<- <-]; try done.
    intros ? ? ? (H1 & _) (H2 & _). congruence.
  - destruct Hp as (Hp & _). destruct (Hr' m t); [|done]. apply (prod_all ps). destruct Hp as (-> & _). by eexists.
Qed.
Lemma group_inj ps sp ch a csm (s : wells * list bool) m t : let n := Group ps sp ch in sums a (leaves n) csm →
  first_exceeded inj_order (exceeds_inj pu a res surf sp (leaves n)) m t →
  group_conditions J pu res surf n csm s =
    ('(n, s) ← apply_control J pu (ReqI m) t true n s;
     match n with Group ps sp ch => Some (false, Group ps (set_imode sp m) ch, s) | _ => None end).
Proof.
  intros n Hs Hi. unfold group_conditions. subst n.
  destruct (inj_violated_ok sp a _ csm Hs [I_RATE; I_RESV]) as ([[m' t']|] & -> & Hr); [apply inj_all|..].
  - destruct (order_inj inj_order (exceeds_inj pu a res surf sp (leaves (Group ps sp ch))) m t m' t') as [<- <-]; try done.
    intros ? ? ? (H1 & _) (H2 & _). congruence.
  - destruct Hi as (Hi & _). destruct (Hr m t); [|done]. apply (inj_all sp). destruct Hi as (-> & _). by eexists.
Qed.

(** ** The worst offender *)
Definition go_worst (m : pmode) := fix go (l : list node) (i : nat) (mx : option (list nat) * R) : option (option (list nat) * R) :=
  match l with
  | [] => Some mx
  | c :: l =>
    '(p, r) ← worst_offending pu res surf m c;
    go l (i + 1)%nat (if decide (i = 0%nat) then (cons i <$> p, r) else if Rlt_dec mx.2 r then (cons i <$> p, r) else mx)
  end.
Lemma worst_group m ps sp ch : worst_offending pu res surf m (Group ps sp ch) = go_worst m ch 0 (None, 0).
Proof. reflexivity. Qed.
Lemma go_worst_cons m c l i mx : go_worst m (c :: l) i mx =
  ('(p, r) ← worst_offending pu res surf m c;
   go_worst m l (i + 1)%nat (if decide (i = 0%nat) then (cons i <$> p, r) else if Rlt_dec mx.2 r then (cons i <$> p, r) else mx)).
Proof. reflexivity. Qed.
Lemma worst_ok m n : can_request pu (ReqP m) → (0 < np)%nat → measured np bhp res surf (leaves n) → populated n →
  ∃ p lf, worst_offending pu res surf m n = Some (Some p, well_rate pu m res surf lf) ∧ well_at p n = Some lf ∧
    ∀ lf', lf' ∈ leaves n → well_rate pu m res surf lf' <= well_rate pu m res surf lf.
Proof.
  intros Hm Hnp. induction n as [ps sp self gci shut|ps sp ch IH] using node_rect'; intros Hms Hpop.
  - destruct (Hms (Leaf ps sp self gci shut)) as (_ & Hr & Hs); [by left|]. cbn [l_self] in Hr, Hs.
    exists [], (Leaf ps sp self gci shut). split; [|split; [done|]].
    + cbn [worst_offending]. rewrite decide_True by lia.
      rewrite (pmode_rate_ok m _ _ (at_well np self res) (at_well np self surf)); [done|done|..]; intros i Hi; rewrite lookup_drop, (Nat.mul_comm self); unfold at_well.
      * by destruct (lookup_lt_is_Some_2 res (np * self + i)%nat ltac:(lia)) as [z ->].
      * by destruct (lookup_lt_is_Some_2 surf (np * self + i)%nat ltac:(lia)) as [z ->].
    + intros lf' Hlf'. apply elem_of_list_singleton in Hlf' as ->. lra.
  - inversion Hpop as [|? ? ? Hne Hpp]; subst. rewrite worst_group. cbn [leaves] in Hms.
    assert (Hgo : ∀ l pre p lf, ch = pre ++ l → pre ≠ [] → well_at p (Group ps sp ch) = Some lf → (∀ lf', lf' ∈ concat (map leaves pre) → well_rate pu m res surf lf' <= well_rate pu m res surf lf) →
      ∃ p' lf', go_worst m l (length pre) (Some p, well_rate pu m res surf lf) = Some (Some p', well_rate pu m res surf lf') ∧ well_at p' (Group ps sp ch) = Some lf' ∧
        ∀ lf'', lf'' ∈ concat (map leaves ch) → well_rate pu m res surf lf'' <= well_rate pu m res surf lf').
    { induction l as [|c l IHl]; intros pre p lf Ech Hpre Hp Hmax.
      - exists p, lf. split; [done|]. split; [done|]. rewrite app_nil_r in Ech. by rewrite Ech.
      - rewrite go_worst_cons. assert (Hc : c ∈ ch) by (rewrite Ech; apply elem_of_app; right; by left).
        assert (Hch : ch !! length pre = Some c) by (rewrite Ech, lookup_app_r, Nat.sub_diag by lia; done).
        rewrite Forall_forall in IH. rewrite Forall_forall in Hpp.
        destruct (IH c Hc) as (q & lq & Eq & Wq & Mq); [|by apply Hpp|].
        { intros lf' Hlf'. apply Hms. apply elem_of_list_In, in_concat. exists (leaves c). split; [apply in_map; by apply elem_of_list_In|by apply elem_of_list_In]. }
        rewrite Eq. cbn [mbind option_bind]. rewrite decide_False by (destruct pre; done).
        replace (length pre + 1)%nat with (length (pre ++ [c])) by (rewrite app_length; cbn; lia). cbn [fst snd].
        assert (Ech' : ch = (pre ++ [c]) ++ l) by (rewrite Ech, <- app_assoc; done).
        assert (Hsplit : ∀ lf', lf' ∈ concat (map leaves (pre ++ [c])) → lf' ∈ concat (map leaves pre) ∨ lf' ∈ leaves c).
        { intros lf' Hin. rewrite map_app, concat_app in Hin. cbn in Hin. rewrite app_nil_r in Hin. by apply elem_of_app in Hin. }
        destruct (Rlt_dec _ _) as [Hlt|Hlt].
        + apply (IHl (pre ++ [c]) (length pre :: q) lq); [done|by destruct pre|cbn [well_at]; by rewrite Hch|].
          intros lf' Hin. destruct (Hsplit lf' Hin) as [H|H]; [pose proof (Hmax lf' H); lra|by apply Mq].
        + apply (IHl (pre ++ [c]) p lf); [done|by destruct pre|done|].
          intros lf' Hin. destruct (Hsplit lf' Hin) as [H|H]; [by apply Hmax|pose proof (Mq lf' H); lra]. }
    destruct ch as [|c l]; [done|]. apply Forall_cons in IH as [IHc _]. apply Forall_cons in Hpp as [Hpc _].
    destruct (IHc) as (q & lq & Eq & Wq & Mq); [|done|].
    { intros lf' Hlf'. apply Hms. cbn [map concat]. apply elem_of_app. by left. }
    rewrite go_worst_cons, Eq. cbn [mbind option_bind]. rewrite decide_True by done.
    destruct (Hgo l [c] (0%nat :: q) lq) as (p & lf & E & W & M); try done.
    { cbn [map concat]. by rewrite app_nil_r. }
    exists p, lf. split_and!; done.
Qed.
Lemma shut_at_ok p : ∀ n lf W a w cl o, well_at p n = Some lf → l_shut lf = true → rel 0 W a → a !! l_self lf = Some (w, cl) →
  ∃ W', shut_at J p n (W, o) = Some (n, (W', o)) ∧ w_np W' = w_np W ∧ rel 0 W' (<[l_self lf := (toggled w, cl)]> a).
Proof.
  induction p as [|i p IH]; intros [ps sp self gci shut|ps sp ch] lf W a w cl o Hp Hsh HR Ew; cbn [well_at] in Hp; try done.
  - injection Hp as <-. cbn [l_shut l_self shut_at] in *. subst shut. unfold shut_well. cbn [mbind option_bind fst snd].
    destruct (r_well _ _ _ HR self w cl Ew) as (_ & _ & _ & _ & _ & _ & c & Ec & Hc). unfold get_ctrl. rewrite Ec. cbn [mbind option_bind].
    unfold put_ctrl. rewrite upd_Some by (by eapply lookup_lt_Some). cbn [mbind option_bind]. eexists. split; [done|]. split; [done|].
    unfold toggled. eapply rel_set_ctrl; [done..|]. destruct Hc as [? ? ? ? ? ? ? Hcur]. split; try done. cbn [c_current]. rewrite Hcur. unfold Z.lnot. lia.
  - destruct (ch !! i) as [c|] eqn:Ei; [|done]. cbn [shut_at]. rewrite Ei. cbn [mbind option_bind].
    destruct (IH c lf W a w cl o Hp Hsh HR Ew) as (W' & E & N & R'). rewrite E. cbn [mbind option_bind]. rewrite list_insert_id by done. by exists W'.
Qed.
Lemma well_at_leaf p : ∀ n lf, well_at p n = Some lf → lf ∈ leaves n.
Proof.
  induction p as [|i p IH]; intros [ps sp self gci shut|ps sp ch] lf Hp; cbn [well_at] in Hp; try done.
  - injection Hp as <-. by left.
  - destruct (ch !! i) as [c|] eqn:Ei; [|done]. apply (elem_of_leaves c); [by eapply elem_of_list_lookup_2|by apply IH].
Qed.

(** ** Production of a tree *)
Definition go_total (flows : list R) (p : phase) (W : wells) := fix go (l : list node) (sum : R) : option R :=
  match l with
  | [] => Some sum
  | c :: l => x ← total_production pu flows p W c; go l (sum + x)
  end.
Lemma total_ok flows p i W a n : rel 0 W a → pu_pos pu !! phase_index p = Some i → (i < np)%nat → present a (leaves n) →
  (∀ lf, lf ∈ leaves n → (np * l_self lf + np <= length flows)%nat) →
  total_production pu flows p W n = Some (total np a PRODUCER flows (leaves n) i).
Proof.
  intros HR Hp Hi. induction n as [ps sp self gci shut|ps sp ch IH] using node_rect'; intros Hpr Hm.
  - destruct (Hpr (Leaf ps sp self gci shut)) as [[w cl] Ew]; [by left|]. cbn [l_self] in Ew. cbn [total_production].
    destruct (r_well _ _ _ HR self w cl Ew) as (Ety & _). rewrite Ety. cbn [mbind option_bind]. unfold total. cbn [leaves rsum]. unfold has_type. cbn [l_self]. rewrite Ew.
    pose proof (Hm (Leaf ps sp self gci shut) ltac:(by left)) as Hl. cbn [l_self] in Hl. destruct (aw_type w).
    + rewrite decide_True, bool_decide_eq_false_2 by done. f_equal. lra.
    + rewrite decide_False, bool_decide_eq_true_2 by done. unfold pos_of. rewrite Hp. cbn [mbind option_bind]. rewrite (Nat.mul_comm self). unfold at_well.
      destruct (lookup_lt_is_Some_2 flows (np * self + i)%nat ltac:(lia)) as [z ->]. f_equal. change (default 0 (Some z)) with z. lra.
  - change (total_production pu flows p W (Group ps sp ch)) with (go_total flows p W ch 0). cbn [leaves] in *.
    assert (∀ s, go_total flows p W ch s = Some (s + total np a PRODUCER flows (concat (map leaves ch)) i)) as ->; [|f_equal; lra].
    revert Hpr Hm. induction IH as [|c ch Hc _ IHl]; intros Hpr Hm s; cbn [map concat] in *.
    + unfold total. cbn. f_equal. lra.
    + apply present_app in Hpr as [Hpr1 Hpr2]. change (go_total flows p W (c :: ch) s) with (x ← total_production pu flows p W c; go_total flows p W ch (s + x)).
      rewrite Hc; [|done|intros; apply Hm, elem_of_app; by left]. cbn [mbind option_bind]. rewrite IHl; [|done|intros; apply Hm, elem_of_app; by right].
      unfold total. rewrite rsum_app. f_equal. lra.
Qed.
End check.
