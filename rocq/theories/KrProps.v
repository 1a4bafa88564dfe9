(** Saturation functions (C63): values and derivatives of relative permeabilities
    and capillary pressures. *)
From Coq Require Import Reals Lra Psatz.
From Verif Require Import Base LoopModel TableModel TofSpec MiscSpec PhaseModel PhaseProps UTableProof UTableProps NTableProof NTableProps KrModel KrSpec KrProof.
Local Open Scope R_scope.
Unset Default Proof Using.

(** ** Tables *)
(** C63: tables of the code are defined everywhere, and derivative() is the slope
    at all points but the nodes. *)
Theorem C63_nonuniform t : ordered 1 (nt_x t) → (1 < length (nt_x t))%nat → length (nt_y t) = length (nt_x t) →
  defined (of_ntable t) ∧ ∀ x, x ∉ nt_x t → has_slope (of_ntable t) x.
Proof.
  intros O Hl Hy. split.
  - intros x. destruct (table_index_spec 1 (nt_x t) x (length (nt_x t)) O Hl (le_n _)) as (i & E & Hi & _).
    assert (is_Some (nt_x t !! i)) as [a Ea] by (apply lookup_lt_is_Some; lia). assert (is_Some (nt_x t !! S i)) as [b Eb] by (apply lookup_lt_is_Some; lia).
    assert (is_Some (nt_y t !! i)) as [c Ec] by (apply lookup_lt_is_Some; lia). assert (is_Some (nt_y t !! S i)) as [d Ed] by (apply lookup_lt_is_Some; lia).
    cbn. unfold nt_eval, linear_interpolation. rewrite E. cbn [mbind option_bind]. rewrite Nat.add_1_r. rewrite Ed, Ec, Eb, Ea. cbn [mbind option_bind].
    pose proof (ordered_ne 1 (nt_x t) i (S i) a b O ltac:(lia) Ea Eb). unfold rdiv. destruct (Req_EM_T (b - a) 0); [lra|]. cbn. eauto.
  - intros x Hx. destruct (C28_derivative 1 (nt_x t) (nt_y t) (length (nt_x t)) x O Hl Hy (le_n _) Hx) as (v & E & H). exists v. split; done.
Qed.
Print Assumptions C63_nonuniform.
Theorem C63_uniform t xmin xmax y : ut_built t xmin xmax y →
  defined (of_utable t) ∧ ∀ x, (∀ i, (i < length y)%nat → x ≠ node xmin xmax (length y) i) → has_slope (of_utable t) x.
Proof.
  intros B. pose proof (ut_built_ok _ _ _ _ B) as O. pose proof O as (_ & _ & _ & Hn & Hx & _). pose proof (delta_pos xmin xmax (length y) Hn Hx) as Hdl. split.
  - intros x. destruct (C27_between t xmin xmax y B x) as (v & _ & _ & _ & E & _). cbn. eauto.
  - intros x Hx'. destruct (C27_derivative t xmin xmax y B x) as (v & E & H); [|by exists v].
    destruct (Rlt_le_dec x xmin) as [|H1]; [by right; left|]. destruct (Rlt_le_dec xmax x) as [|H2]; [by right; right|]. left.
    destruct (cell_of t xmin xmax y O x (conj H1 H2)) as (i & Hi & Hc). exists i. split; [done|].
    pose proof (Hx' i ltac:(lia)). pose proof (Hx' (S i) ltac:(lia)). lra.
Qed.
Print Assumptions C63_uniform.

(** ** Two phases *)
(** C63: with oil and one other phase the matrix of evalKrDeriv holds the
    derivatives: for all directions in the models of Stone and of segregation,
    for those that keep the sum of saturations in the simple one. *)
Theorem C63_two m F w g s kr0 d0 : phases F w g → w ≠ g → tables_defined F → (2 ≤ length s)%nat → (2 ≤ length kr0)%nat → (4 ≤ length d0)%nat →
  (if w then has_slope (sf_krw F) (val s 0) ∧ has_slope (sf_krow F) (match m with Simple => 1 - val s 1 | _ => val s 0 end)
   else has_slope (sf_krg F) (val s 1) ∧ has_slope (sf_krog F) (val s 1)) →
  ∃ kr M, eval_kr_deriv m F s kr0 d0 = Some (kr, M) ∧ eval_kr m F s kr0 = Some kr ∧
    kr = (if w then [tab (sf_krw F) (val s 0); tab (sf_krow F) (match m with Simple => 1 - val s 1 | _ => val s 0 end)]
          else [tab (sf_krog F) (val s 1); tab (sf_krg F) (val s 1)]) ++ drop 2 kr0 ∧
    drop 4 M = drop 4 d0 ∧
    ∀ d p, length d = length s → (p < 2)%nat → (m = Simple → keeps_sum 2 d) → changes (λ s, eval_kr m F s kr0) s d p (row 2 M p d).
Proof.
  intros HP Hne (D1 & D2 & D3 & D4) Hs Hk Hd HS.
  destruct (list2 s Hs) as (s0 & s1 & rs & ->). destruct (list2 kr0 Hk) as (k0 & k1 & rk & ->). destruct (list4 d0 Hd) as (e0 & e1 & e2 & e3 & re & ->).
  destruct (phases_cases F w g HP) as [(-> & -> & Epu)|[(-> & -> & Epu)|(-> & -> & Epu)]]; [done| |].
  - destruct HS as [[v1 [T1 V1]] [v2 [T2 V2]]]. unfold val in *. cbn [lookup list_lookup default from_option Datatypes.id] in *.
    assert (EK : ∀ a b r, eval_kr m F (a :: b :: r) (k0 :: k1 :: rk) = Some (tab (sf_krw F) a :: tab (sf_krow F) (match m with Simple => 1 - b | _ => a end) :: rk)).
    { intros a b r. unfold eval_kr, two, used, pos. rewrite Epu. cbn. rewrite (defined_tab _ a D1). cbn. destruct m; cbn; rewrite defined_tab by done; done. }
    eexists _, (v1 :: v2 :: 0 :: 0 :: re). split; [|split; [apply EK|split; [done|split; [done|]]]].
    { unfold eval_kr_deriv, two_deriv, used, pos. rewrite Epu. cbn. rewrite (defined_tab _ s0 D1). cbn. rewrite T1. cbn. destruct m; cbn; rewrite defined_tab by done; cbn; rewrite T2; done. }
    intros d p HL Hp Hsum. destruct d as [|q0 [|q1 rd]]; try (cbn in HL; lia).
    exists (λ t, match p with 0%nat => tab (sf_krw F) (s0 + t * q0) | _ => tab (sf_krow F) (match m with Simple => (1 - s1) + t * (- q1) | _ => s0 + t * q0 end) end), 1. split; [lra|]. split.
    + intros t _. eexists. split; [apply EK|]. destruct p as [|[|p]]; [done| |lia]. cbn. do 2 f_equal. destruct m; lra.
    + destruct p as [|[|p]]; [| |lia]; unfold row, keeps_sum, val in *; cbn [rsum seq lookup list_lookup Nat.add Nat.mul default from_option Datatypes.id] in *.
      * eapply dl_eq; [apply dl_tab, V1|lra].
      * destruct m; (eapply dl_eq; [apply dl_tab, V2|]); try lra. specialize (Hsum eq_refl). assert (q1 = - q0) as -> by lra. lra.
  - destruct HS as [[v1 [T1 V1]] [v2 [T2 V2]]]. unfold val in *. cbn [lookup list_lookup default from_option Datatypes.id] in *.
    assert (EK : ∀ a b r, eval_kr m F (a :: b :: r) (k0 :: k1 :: rk) = Some (tab (sf_krog F) b :: tab (sf_krg F) b :: rk)).
    { intros a b r. unfold eval_kr, two, used, pos. rewrite Epu. cbn. rewrite (defined_tab _ b D3). cbn. rewrite (defined_tab _ b D4). done. }
    eexists _, (0 :: 0 :: v2 :: v1 :: re). split; [|split; [apply EK|split; [done|split; [done|]]]].
    { unfold eval_kr_deriv, two_deriv, used, pos. rewrite Epu. cbn. rewrite (defined_tab _ s1 D3). cbn. rewrite T1. cbn. rewrite (defined_tab _ s1 D4). cbn. rewrite T2. done. }
    intros d p HL Hp Hsum. destruct d as [|q0 [|q1 rd]]; try (cbn in HL; lia).
    exists (λ t, match p with 0%nat => tab (sf_krog F) (s1 + t * q1) | _ => tab (sf_krg F) (s1 + t * q1) end), 1. split; [lra|]. split.
    + intros t _. eexists. split; [apply EK|]. destruct p as [|[|p]]; [done|done|lia].
    + destruct p as [|[|p]]; [| |lia]; unfold row, keeps_sum, val in *; cbn [rsum seq lookup list_lookup Nat.add Nat.mul default from_option Datatypes.id] in *.
      * eapply dl_eq; [apply dl_tab, V2|lra].
      * eapply dl_eq; [apply dl_tab, V1|lra].
Qed.
Print Assumptions C63_two.

(** ** Three phases *)
Lemma three_usage F : phases F true true → sf_pu F = PhaseUsage 3 [1; 1; 1]%nat [0; 1; 2]%nat.
Proof. intros HP. by destruct (phases_cases F true true HP) as [(_ & _ & E)|[(_ & ? & _)|(? & _)]]. Qed.
Ltac ev := repeat (cbn; first [rewrite decide_True by done | rewrite upd_Some by (cbn; lia)]); cbn.
Definition clip (v : R) : R := if Rlt_dec v 0 then 0 else v.
Lemma clip_id v : 0 <= v → clip v = v.
Proof. intros H. unfold clip. destruct (Rlt_dec v 0); [lra|done]. Qed.
Lemma clip_nonneg v : 0 <= clip v.
Proof. unfold clip. destruct (Rlt_dec v 0); lra. Qed.

Section three.
Context (F : satfunc) (HP : phases F true true) (HD : tables_defined F).
Lemma simple3_eq a b c r k0 k1 k2 rk : eval_kr Simple F (a :: b :: c :: r) (k0 :: k1 :: k2 :: rk) =
  Some (tab (sf_krw F) a :: clip (tab (sf_krow F) (a + c)) :: tab (sf_krg F) c :: rk).
Proof using HP HD.
  destruct HD as (D1 & D2 & D3 & D4). unfold eval_kr, simple3. rewrite (three_usage F HP). cbn. rewrite (defined_tab _ a D1). cbn. rewrite (defined_tab _ c D3). cbn. rewrite (defined_tab _ (a + c) D2). cbn.
  ev. unfold clip. destruct (Rlt_dec (tab (sf_krow F) (a + c)) 0); ev; done.
Qed.
(** C63: the simple model for three phases. *)
Theorem C63_simple3 s kr0 d0 : (3 ≤ length s)%nat → (3 ≤ length kr0)%nat → (9 ≤ length d0)%nat →
  has_slope (sf_krw F) (val s 0) → has_slope (sf_krg F) (val s 2) → has_slope (sf_krow F) (val s 0 + val s 2) →
  0 < tab (sf_krow F) (val s 0 + val s 2) ∨ (∀ x, 0 <= tab (sf_krow F) x) →
  ∃ kr M, eval_kr_deriv Simple F s kr0 d0 = Some (kr, M) ∧ eval_kr Simple F s kr0 = Some kr ∧
    kr = [tab (sf_krw F) (val s 0); tab (sf_krow F) (val s 0 + val s 2); tab (sf_krg F) (val s 2)] ++ drop 3 kr0 ∧ drop 9 M = drop 9 d0 ∧
    ∀ d p, length d = length s → (p < 3)%nat → keeps_sum 3 d → changes (λ s, eval_kr Simple F s kr0) s d p (row 3 M p d).
Proof using HP HD.
  intros Hs Hk Hd. destruct (list3 s Hs) as (a & b & c & rs & ->). destruct (list3 kr0 Hk) as (k0 & k1 & k2 & rk & ->). destruct (list9 d0 Hd) as (e0 & e1 & e2 & e3 & e4 & e5 & e6 & e7 & e8 & re & ->).
  unfold val. cbn [lookup list_lookup default from_option Datatypes.id]. intros [v1 [T1 V1]] [v2 [T2 V2]] [v3 [T3 V3]] Hpos.
  assert (H0 : 0 <= tab (sf_krow F) (a + c)) by (destruct Hpos as [?|Hpos]; [lra|apply Hpos]).
  eexists _, (v1 :: 0 :: 0 :: 0 :: - v3 :: 0 :: 0 :: 0 :: v2 :: re). split; [|split; [apply simple3_eq|split; [by rewrite clip_id|split; [done|]]]].
  { destruct HD as (D1 & D2 & D3 & D4). unfold eval_kr_deriv, simple3_deriv. rewrite (three_usage F HP). cbn. rewrite (defined_tab _ a D1). cbn. rewrite T1. cbn. rewrite (defined_tab _ c D3). cbn. rewrite T2. cbn. rewrite (defined_tab _ (a + c) D2). cbn. rewrite T3. cbn.
    ev. unfold clip. destruct (Rlt_dec (tab (sf_krow F) (a + c)) 0); ev; done. }
  intros d p HL Hp Hsum. destruct d as [|q0 [|q1 [|q2 rd]]]; try (cbn in HL; lia).
  unfold row, keeps_sum, val in *; cbn [rsum seq lookup list_lookup Nat.add Nat.mul default from_option Datatypes.id] in *.
  pose proof (dl_tab _ _ (q0 + q2) _ V3) as W3.
  assert (∃ δ, 0 < δ ∧ ∀ t, Rabs t < δ → 0 <= tab (sf_krow F) (a + c + t * (q0 + q2))) as (δ & Hδ & Hn).
  { destruct Hpos as [Hpos|Hpos]; [|exists 1; split; [lra|by intros]]. destruct (dl_pos _ _ W3) as (δ & Hδ & Hn); [by replace (a + c + 0 * (q0 + q2)) with (a + c) by lra|]. exists δ. split; [done|]. intros t Ht. apply Rlt_le, Hn, Ht. }
  exists (λ t, match p with 0%nat => tab (sf_krw F) (a + t * q0) | 1%nat => tab (sf_krow F) (a + c + t * (q0 + q2)) | _ => tab (sf_krg F) (c + t * q2) end), δ. split; [done|]. split.
  - intros t Ht. eexists. split; [apply simple3_eq|]. destruct p as [|[|[|p]]]; [done| |done|lia]. cbn. f_equal. rewrite <- (clip_id _ (Hn t Ht)). do 2 f_equal. lra.
  - destruct p as [|[|[|p]]]; [| | |lia]; cbn [Nat.add lookup list_lookup default from_option Datatypes.id].
    + eapply dl_eq; [apply dl_tab, V1|lra].
    + eapply dl_eq; [apply W3|]. assert (q1 = - q0 - q2) as -> by lra. lra.
    + eapply dl_eq; [apply dl_tab, V2|lra].
Qed.

(** Stone's second model. *)
Hypothesis Hk : sf_krocw F ≠ 0.
Definition oil_at (a c : R) : R := stone_oil (sf_krocw F) (tab (sf_krw F) a) (tab (sf_krow F) (a + c)) (tab (sf_krg F) c) (tab (sf_krog F) c).
Lemma stone3_eq a b c r k0 k1 k2 rk : eval_kr Stone2 F (a :: b :: c :: r) (k0 :: k1 :: k2 :: rk) =
  Some (tab (sf_krw F) a :: clip (oil_at a c) :: tab (sf_krg F) c :: rk).
Proof using HP HD Hk.
  destruct HD as (D1 & D2 & D3 & D4). unfold eval_kr, stone3. rewrite (three_usage F HP). cbn. rewrite (defined_tab _ a D1). cbn. rewrite (defined_tab _ c D3). cbn. rewrite (defined_tab _ (a + c) D2). cbn. rewrite (defined_tab _ c D4). cbn.
  unfold rdiv. destruct (Req_EM_T (sf_krocw F) 0); [done|]. cbn. ev. unfold clip, oil_at, stone_oil. destruct (Rlt_dec _ 0); ev; done.
Qed.
(** C63: in Stone's model all entries are derivatives but that of oil with
    respect to gas, which is wrong by krocw times krw (krog/krocw + krg) less the
    slope of krg: [changes] holds after taking this error away. *)
Theorem C63_stone3_partial s kr0 d0 : (3 ≤ length s)%nat → (3 ≤ length kr0)%nat → (9 ≤ length d0)%nat →
  has_slope (sf_krw F) (val s 0) → has_slope (sf_krg F) (val s 2) → has_slope (sf_krow F) (val s 0 + val s 2) → has_slope (sf_krog F) (val s 2) →
  0 < oil_at (val s 0) (val s 2) →
  ∃ kr M, eval_kr_deriv Stone2 F s kr0 d0 = Some (kr, M) ∧ eval_kr Stone2 F s kr0 = Some kr ∧
    kr = [tab (sf_krw F) (val s 0); oil_at (val s 0) (val s 2); tab (sf_krg F) (val s 2)] ++ drop 3 kr0 ∧ drop 9 M = drop 9 d0 ∧
    ∀ d p, length d = length s → (p < 3)%nat →
      (p ≠ 1%nat ∨ val d 2 = 0 → changes (λ s, eval_kr Stone2 F s kr0) s d p (row 3 M p d)) ∧
      ∀ dkrgg, slope (sf_krg F) (val s 2) dkrgg →
        let error := sf_krocw F * (tab (sf_krw F) (val s 0) * (tab (sf_krog F) (val s 2) / sf_krocw F + tab (sf_krg F) (val s 2)) - dkrgg) in
        p = 1%nat → changes (λ s, eval_kr Stone2 F s kr0) s d p (row 3 M p d - error * val d 2).
Proof using HP HD Hk.
  intros Hs Hk' Hd. destruct (list3 s Hs) as (a & b & c & rs & ->). destruct (list3 kr0 Hk') as (k0 & k1 & k2 & rk & ->). destruct (list9 d0 Hd) as (e0 & e1 & e2 & e3 & e4 & e5 & e6 & e7 & e8 & re & ->).
  unfold val. cbn [lookup list_lookup default from_option Datatypes.id]. intros [v1 [T1 V1]] [v2 [T2 V2]] [v3 [T3 V3]] [v4 [T4 V4]] Hpos.
  set (K := sf_krocw F) in *. set (krw := tab (sf_krw F)) in *. set (krow := tab (sf_krow F)) in *. set (krg := tab (sf_krg F)) in *. set (krog := tab (sf_krog F)) in *.
  set (M := v1 :: K * ((v3 / K + v1) * (krog c / K + krg c) - v1) :: 0 :: 0 :: 0 :: 0 :: 0 :: K * ((krow (a + c) / K + krw a) * (v4 / K + v2) - v2) + K * ((v3 / K + krw a) * (krog c / K + krg c) - v2) :: v2 :: re).
  eexists _, M. split; [|split; [apply stone3_eq|split; [rewrite clip_id by lra; done|split; [done|]]]].
  { destruct HD as (D1 & D2 & D3 & D4). unfold eval_kr_deriv, stone3_deriv. rewrite (three_usage F HP). cbn. rewrite (defined_tab _ a D1). cbn. rewrite T1. cbn. rewrite (defined_tab _ c D3). cbn. rewrite T2. cbn. rewrite (defined_tab _ (a + c) D2). cbn. rewrite T3. cbn. rewrite (defined_tab _ c D4). cbn. rewrite T4. cbn.
    fold K. unfold rdiv. destruct (Req_EM_T K 0); [done|]. cbn. unfold clip, oil_at, stone_oil. fold K krw krow krg krog. ev. destruct (Rlt_dec _ 0); ev; done. }
  intros d p HL Hp. destruct d as [|q0 [|q1 [|q2 rd]]]; try (cbn in HL; lia). cbn [lookup list_lookup default from_option Datatypes.id].
  pose proof (dl_tab _ _ q0 _ V1) as W1. pose proof (dl_tab _ _ q2 _ V2) as W2. pose proof (dl_tab _ _ (q0 + q2) _ V3) as W3. pose proof (dl_tab _ _ q2 _ V4) as W4. fold krw krow krg krog in W1, W2, W3, W4.
  set (D := K * ((v3 * (q0 + q2) / K + v1 * q0) * (krog c / K + krg c) + (krow (a + c) / K + krw a) * (v4 * q2 / K + v2 * q2) - v1 * q0 - v2 * q2)).
  assert (HO : derivable_pt_lim (λ t, oil_at (a + t * q0) (c + t * q2)) 0 D).
  { eapply dl_ext; [|intros t; unfold oil_at, stone_oil; fold K krw krow krg krog; replace (a + t * q0 + (c + t * q2)) with (a + c + t * (q0 + q2)) by lra; reflexivity].
    eapply dl_eq.
    { refine (derivable_pt_lim_scal (λ t, (krow (a + c + t * (q0 + q2)) / K + krw (a + t * q0)) * (krog (c + t * q2) / K + krg (c + t * q2)) - krw (a + t * q0) - krg (c + t * q2)) K 0 _ _).
      refine (derivable_pt_lim_minus (λ t, (krow (a + c + t * (q0 + q2)) / K + krw (a + t * q0)) * (krog (c + t * q2) / K + krg (c + t * q2)) - krw (a + t * q0)) (λ t, krg (c + t * q2)) 0 _ _ _ W2).
      refine (derivable_pt_lim_minus (λ t, (krow (a + c + t * (q0 + q2)) / K + krw (a + t * q0)) * (krog (c + t * q2) / K + krg (c + t * q2))) (λ t, krw (a + t * q0)) 0 _ _ _ W1).
      refine (derivable_pt_lim_mult (λ t, krow (a + c + t * (q0 + q2)) / K + krw (a + t * q0)) (λ t, krog (c + t * q2) / K + krg (c + t * q2)) 0 _ _ _ _).
      - refine (derivable_pt_lim_plus (λ t, krow (a + c + t * (q0 + q2)) / K) (λ t, krw (a + t * q0)) 0 _ _ _ W1).
        refine (derivable_pt_lim_mult (λ t, krow (a + c + t * (q0 + q2))) (fct_cte (/ K)) 0 _ _ W3 (derivable_pt_lim_const _ _)).
      - refine (derivable_pt_lim_plus (λ t, krog (c + t * q2) / K) (λ t, krg (c + t * q2)) 0 _ _ _ W2).
        refine (derivable_pt_lim_mult (λ t, krog (c + t * q2)) (fct_cte (/ K)) 0 _ _ W4 (derivable_pt_lim_const _ _)). }
    unfold fct_cte, D. rewrite !Rmult_0_l, !Rplus_0_r. field. done. }
  destruct (dl_pos _ _ HO) as (δ & Hδ & Hn); [by rewrite !Rmult_0_l, !Rplus_0_r|].
  assert (HC : ∀ v, v = match p with 0%nat => v1 * q0 | 1%nat => D | _ => v2 * q2 end → changes (λ s, eval_kr Stone2 F s (k0 :: k1 :: k2 :: rk)) (a :: b :: c :: rs) (q0 :: q1 :: q2 :: rd) p v).
  { intros v ->. exists (λ t, match p with 0%nat => krw (a + t * q0) | 1%nat => oil_at (a + t * q0) (c + t * q2) | _ => krg (c + t * q2) end), δ. split; [done|]. split.
    - intros t Ht. eexists. split; [apply stone3_eq|]. destruct p as [|[|[|p]]]; [done| |done|lia]. cbn. by rewrite clip_id by (apply Rlt_le, Hn, Ht).
    - destruct p as [|[|[|p]]]; [done|done|done|lia]. }
  unfold row, val; cbn [rsum seq lookup list_lookup Nat.add Nat.mul default from_option Datatypes.id]. split.
  - intros Hc. apply HC. destruct p as [|[|[|p]]]; [| | |lia]; cbn [Nat.add M lookup list_lookup default from_option Datatypes.id]; [lra| |lra].
    destruct Hc as [?| ->]; [done|]. unfold D. field. done.
  - intros dk [Tk _] -> . rewrite T2 in Tk. injection Tk as <-. apply HC. cbn [Nat.add M lookup list_lookup default from_option Datatypes.id]. unfold D. field. done.
Qed.
End three.
Print Assumptions C63_simple3.
Print Assumptions C63_stone3_partial.
