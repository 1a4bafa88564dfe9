(** Saturation functions (C63): segregated water and gas, capillary pressures,
    bounds and limits. *)
From Coq Require Import Reals Lra Psatz.
From Verif Require Import Base LoopModel TableModel TofSpec MiscSpec PhaseModel PhaseProps KrModel KrSpec KrProof KrProps.
Local Open Scope R_scope.
Unset Default Proof Using.

Section gwseg.
Context (F : satfunc) (HP : phases F true true) (HD : tables_defined F) (swco : R) (Hco : sf_smin F !! 0%nat = Some swco).
Definition zone_w (a c : R) : R := (Rmax a swco - swco) / Rmax (c + Rmax a swco - swco) eps.
Lemma eps_pos : 0 < eps.
Proof. unfold eps. lra. Qed.
Lemma max_eps x : Rmax x eps ≠ 0.
Proof. pose proof (Rmax_r x eps). pose proof eps_pos. lra. Qed.
Lemma gwseg3_eq a b c r k0 k1 k2 rk : eval_kr Gwseg F (a :: b :: c :: r) (k0 :: k1 :: k2 :: rk) =
  let sw := Rmax a swco in let x := zone_w a c in
  Some (x * tab (sf_krw F) (c + sw) :: x * tab (sf_krow F) (c + sw) + (1 - x) * tab (sf_krog F) (sw - swco + c) :: (1 - x) * tab (sf_krg F) (sw - swco + c) :: rk).
Proof using HP HD Hco.
  destruct HD as (D1 & D2 & D3 & D4). unfold eval_kr, gwseg3, pos. rewrite (three_usage F HP). cbn. rewrite Hco. cbn. unfold rdiv. destruct (Req_EM_T _ 0) as [E|_]; [by apply max_eps in E|]. cbn.
  rewrite (defined_tab _ _ D1). cbn. rewrite (defined_tab _ _ D3). cbn. rewrite (defined_tab _ _ D2). cbn. rewrite (defined_tab _ _ D4). ev. done.
Qed.
(** C63: in the model of segregated water and gas, where there is more than
    connate water and the mobile zones are not nearly empty, the matrix holds the
    derivatives in all directions. *)
Theorem C63_gwseg3 s kr0 d0 : (3 ≤ length s)%nat → (3 ≤ length kr0)%nat → (9 ≤ length d0)%nat →
  let ssw := val s 2 + val s 0 in let ssg := val s 0 - swco + val s 2 in
  has_slope (sf_krw F) ssw → has_slope (sf_krow F) ssw → has_slope (sf_krg F) ssg → has_slope (sf_krog F) ssg →
  swco < val s 0 → eps < ssg →
  ∃ kr M, eval_kr_deriv Gwseg F s kr0 d0 = Some (kr, M) ∧ eval_kr Gwseg F s kr0 = Some kr ∧ drop 9 M = drop 9 d0 ∧
    ∀ d p, length d = length s → (p < 3)%nat → changes (λ s, eval_kr Gwseg F s kr0) s d p (row 3 M p d).
Proof using HP HD Hco.
  intros Hs Hk' Hd. destruct (list3 s Hs) as (a & b & c & rs & ->). destruct (list3 kr0 Hk') as (k0 & k1 & k2 & rk & ->). destruct (list9 d0 Hd) as (e0 & e1 & e2 & e3 & e4 & e5 & e6 & e7 & e8 & re & ->).
  unfold val. cbn [lookup list_lookup default from_option Datatypes.id]. intros [v1 [T1 V1]] [v2 [T2 V2]] [v3 [T3 V3]] [v4 [T4 V4]] Hsw Hsg. pose proof eps_pos as Hep.
  set (krw := tab (sf_krw F)) in *. set (krow := tab (sf_krow F)) in *. set (krg := tab (sf_krg F)) in *. set (krog := tab (sf_krog F)) in *.
  set (y := a - swco + c) in *. set (z := c + a) in *. set (x := (a - swco) / y).
  assert (EM : Rmax a swco = a) by (apply Rmax_left; lra). assert (EY : Rmax (c + a - swco) eps = y) by (rewrite Rmax_left; unfold y in *; lra).
  assert (EX : zone_w a c = x) by (unfold zone_w; rewrite EM, EY; done).
  set (M := (1 - x) / y * krw z + x * v1 :: (1 - x) / y * krow z + x * v2 - (1 - x) / y * krog y + (1 - x) * v4 :: - ((1 - x) / y) * krg y + (1 - x) * v3 :: 0 :: 0 :: 0 ::
    - (x / y) * krw z + x * v1 :: - (x / y) * krow z + x * v2 + x / y * krog y + (1 - x) * v4 :: x / y * krg y + (1 - x) * v3 :: re).
  eexists _, M. split; [|split; [apply gwseg3_eq|split; [done|]]].
  { destruct HD as (D1 & D2 & D3 & D4). unfold eval_kr_deriv, gwseg3_deriv, pos. rewrite (three_usage F HP). ev. rewrite Hco. cbn. rewrite EM, EY. assert (∀ u, rdiv u y = Some (u / y)) as ER by (intros u; unfold rdiv; destruct (Req_EM_T y 0); [lra|done]). rewrite ER. cbn. fold y z x. rewrite (defined_tab _ _ D1). cbn. rewrite (defined_tab _ _ D3). cbn. rewrite (defined_tab _ _ D2). cbn. rewrite (defined_tab _ _ D4). ev. rewrite T1. cbn. rewrite T3. cbn. rewrite T2. cbn. rewrite T4. cbn.
    rewrite !ER. ev. rewrite EX. done. }
  intros d p HL Hp. destruct d as [|q0 [|q1 [|q2 rd]]]; try (cbn in HL; lia).
  set (q := q0 + q2).
  pose proof (dl_tab _ _ q _ V1) as W1. pose proof (dl_tab _ _ q _ V2) as W2. pose proof (dl_tab _ _ q _ V3) as W3. pose proof (dl_tab _ _ q _ V4) as W4. fold krw krow krg krog in W1, W2, W3, W4.
  set (X := λ t, (a - swco + t * q0) / (y + t * q)).
  assert (HX0 : X 0 = x) by (unfold X, x; rewrite !Rmult_0_l, !Rplus_0_r; done).
  assert (HX : derivable_pt_lim X 0 ((1 - x) / y * q0 - x / y * q2)).
  { eapply dl_eq; [refine (derivable_pt_lim_div (λ t, a - swco + t * q0) (λ t, y + t * q) 0 _ _ (dl_lin _ _ _) (dl_lin _ _ _) _); lra|].
    cbn beta; rewrite ?Rmult_0_l, ?Rplus_0_r. unfold Rsqr, x, q. unfold y in *. field. lra. }
  destruct (lin_pos (a - swco) q0) as (δ1 & Hδ1 & H1); [lra|]. destruct (lin_pos (y - eps) q) as (δ2 & Hδ2 & H2); [lra|].
  exists (λ t, match p with 0%nat => X t * krw (z + t * q) | 1%nat => X t * krow (z + t * q) + (1 - X t) * krog (y + t * q) | _ => (1 - X t) * krg (y + t * q) end), (Rmin δ1 δ2). split; [by apply Rmin_pos|]. split.
  - intros t Ht. pose proof (H1 t ltac:(pose proof (Rmin_l δ1 δ2); lra)) as P1. pose proof (H2 t ltac:(pose proof (Rmin_r δ1 δ2); lra)) as P2.
    eexists. split; [apply gwseg3_eq|]. cbn zeta. unfold zone_w. rewrite (Rmax_left (a + t * q0) swco) by lra.
    rewrite (Rmax_left _ eps) by (unfold y, q in P2; lra).
    assert ((a + t * q0 - swco) / (c + t * q2 + (a + t * q0) - swco) = X t) as -> by (unfold X, y, q; f_equal; [lra|f_equal; lra]).
    replace (c + t * q2 + (a + t * q0)) with (z + t * q) by (unfold z, q; lra). replace (a + t * q0 - swco + (c + t * q2)) with (y + t * q) by (unfold y, q; lra).
    destruct p as [|[|[|p]]]; [done|done|done|lia].
  - assert (HX' : derivable_pt_lim (λ t, 1 - X t) 0 (- ((1 - x) / y * q0 - x / y * q2))).
    { eapply dl_eq; [apply (derivable_pt_lim_minus (fct_cte 1) X 0 _ _ (derivable_pt_lim_const _ _) HX)|lra]. }
    assert (EZ : ∀ u, u + 0 * q = u) by (intros; lra).
    unfold row, val; cbn [rsum seq lookup list_lookup Nat.add Nat.mul default from_option Datatypes.id]. 
    destruct p as [|[|[|p]]]; [| | |lia]; cbn [Nat.add M lookup list_lookup default from_option Datatypes.id].
    + eapply dl_eq; [apply (derivable_pt_lim_mult X (λ t, krw (z + t * q)) 0 _ _ HX W1)|]. rewrite HX0, EZ. unfold q. lra.
    + eapply dl_eq; [apply (derivable_pt_lim_plus (λ t, X t * krow (z + t * q)) (λ t, (1 - X t) * krog (y + t * q)) 0 _ _ (derivable_pt_lim_mult X (λ t, krow (z + t * q)) 0 _ _ HX W2) (derivable_pt_lim_mult (λ t, 1 - X t) (λ t, krog (y + t * q)) 0 _ _ HX' W4))|].
      rewrite HX0, !EZ. unfold q. lra.
    + eapply dl_eq; [apply (derivable_pt_lim_mult (λ t, 1 - X t) (λ t, krg (y + t * q)) 0 _ _ HX' W3)|]. rewrite HX0, EZ. unfold q. lra.
Qed.

(** The zones are fractions. *)
Lemma zone_unit a c : 0 <= c → 0 <= zone_w a c <= 1.
Proof.
  intros Hc. unfold zone_w. pose proof (Rmax_r a swco). pose proof (Rmax_l (c + Rmax a swco - swco) eps). pose proof (Rmax_r (c + Rmax a swco - swco) eps). pose proof eps_pos.
  set (m := Rmax a swco) in *. set (n := Rmax (c + m - swco) eps) in *. split; [apply Rmult_le_pos; [lra|]; apply Rlt_le, Rinv_0_lt_compat; lra|].
  apply Rmult_le_reg_r with n; [lra|]. unfold Rdiv. rewrite Rmult_assoc, Rinv_l by lra. lra.
Qed.
(** C63: with tables between 0 and 1 and gas saturation not negative, relative
    permeabilities are between 0 and 1, and that of oil is between those of its
    two zones. *)
Theorem C63_gwseg_bounds s kr0 : (3 ≤ length s)%nat → (3 ≤ length kr0)%nat → 0 <= val s 2 →
  unit_valued (sf_krw F) → unit_valued (sf_krow F) → unit_valued (sf_krg F) → unit_valued (sf_krog F) →
  ∃ kr, eval_kr Gwseg F s kr0 = Some kr ∧ (∀ p, (p < 3)%nat → 0 <= val kr p <= 1) ∧
    let sw := Rmax (val s 0) swco in let u := tab (sf_krow F) (val s 2 + sw) in let v := tab (sf_krog F) (sw - swco + val s 2) in
    Rmin u v <= val kr 1 <= Rmax u v ∧ val kr 0 <= tab (sf_krw F) (val s 2 + sw) ∧ val kr 2 <= tab (sf_krg F) (sw - swco + val s 2).
Proof using HP HD Hco.
  intros Hs Hk. destruct (list3 s Hs) as (a & b & c & rs & ->). destruct (list3 kr0 Hk) as (k0 & k1 & k2 & rk & ->).
  unfold val. cbn [lookup list_lookup default from_option Datatypes.id]. intros Hc U1 U2 U3 U4. eexists. split; [apply gwseg3_eq|].
  pose proof (zone_unit a c Hc) as HZ. set (x := zone_w a c) in *. set (sw := Rmax a swco) in *.
  pose proof (U1 (c + sw)) as B1. pose proof (U2 (c + sw)) as B2. pose proof (U3 (sw - swco + c)) as B3. pose proof (U4 (sw - swco + c)) as B4.
  cbn zeta. split.
  - intros [|[|[|p]]] Hp; [| | |lia]; cbn; clear -HZ B1 B2 B3 B4; nra.
  - cbn. set (u := tab (sf_krow F) (c + sw)) in *. set (v := tab (sf_krog F) (sw - swco + c)) in *. clearbody u v.
    split; [|clear -HZ B1 B3; nra]. clear -HZ. destruct (Rle_or_lt u v).
    + rewrite Rmin_left, Rmax_right by lra. nra.
    + rewrite Rmin_right, Rmax_left by lra. nra.
Qed.
(** C63: without gas the model is that of water and oil, at connate water that of
    gas and oil. *)
Theorem C63_gwseg_limits a b c r k0 k1 k2 rk :
  (c = 0 → swco + eps <= a → eval_kr Gwseg F (a :: b :: c :: r) (k0 :: k1 :: k2 :: rk) = Some (tab (sf_krw F) a :: tab (sf_krow F) a :: 0 :: rk)) ∧
  (a <= swco → eval_kr Gwseg F (a :: b :: c :: r) (k0 :: k1 :: k2 :: rk) = Some (0 :: tab (sf_krog F) c :: tab (sf_krg F) c :: rk)).
Proof using HP HD Hco.
  pose proof eps_pos. split.
  - intros -> Ha. rewrite gwseg3_eq. cbn zeta. unfold zone_w. rewrite (Rmax_left a swco) by lra. rewrite (Rmax_left _ eps) by lra.
    replace ((a - swco) / (0 + a - swco)) with 1 by (field; lra). replace (0 + a) with a by lra. f_equal. f_equal; [lra|]. f_equal; [lra|]. f_equal. lra.
  - intros Ha. rewrite gwseg3_eq. cbn zeta. unfold zone_w. rewrite (Rmax_right a swco) by lra. replace (swco - swco) with 0 by lra. unfold Rdiv. rewrite Rmult_0_l. replace (0 + c) with c by lra. f_equal. f_equal; [lra|]. f_equal; [lra|]. f_equal. lra.
Qed.
End gwseg.
Print Assumptions C63_gwseg3.
Print Assumptions C63_gwseg_bounds.
Print Assumptions C63_gwseg_limits.

(** ** The other models *)
(** C63: in the simple model values between 0 and 1 stay there. *)
Theorem C63_simple_bounds F w g s kr0 : phases F w g → tables_defined F → (pu_num (sf_pu F) ≤ length s)%nat → (pu_num (sf_pu F) ≤ length kr0)%nat →
  unit_valued (sf_krw F) → unit_valued (sf_krow F) → unit_valued (sf_krg F) → unit_valued (sf_krog F) →
  ∃ kr, eval_kr Simple F s kr0 = Some kr ∧ ∀ p, (p < pu_num (sf_pu F))%nat → 0 <= val kr p <= 1.
Proof.
  intros HP HD Hs Hk U1 U2 U3 U4. destruct (phases_cases F w g HP) as [(-> & -> & Epu)|[(-> & -> & Epu)|(-> & -> & Epu)]]; rewrite Epu in Hs, Hk |- *; cbn in Hs, Hk |- *.
  - destruct (list3 s Hs) as (a & b & c & rs & ->). destruct (list3 kr0 Hk) as (k0 & k1 & k2 & rk & ->). rewrite (simple3_eq F HP HD). eexists. split; [done|].
    intros [|[|[|p]]] Hp; [apply U1| |apply U3|lia]. cbn. rewrite clip_id by apply U2. apply U2.
  - destruct (list2 s Hs) as (a & b & rs & ->). destruct (list2 kr0 Hk) as (k0 & k1 & rk & ->). destruct HD as (D1 & D2 & D3 & D4).
    unfold eval_kr, two, used, pos. rewrite Epu. cbn. rewrite (defined_tab _ _ D1). cbn. rewrite (defined_tab _ _ D2). cbn. eexists. split; [done|].
    intros [|[|p]] Hp; [apply U1|apply U2|lia].
  - destruct (list2 s Hs) as (a & b & rs & ->). destruct (list2 kr0 Hk) as (k0 & k1 & rk & ->). destruct HD as (D1 & D2 & D3 & D4).
    unfold eval_kr, two, used, pos. rewrite Epu. cbn. rewrite (defined_tab _ _ D3). cbn. rewrite (defined_tab _ _ D4). cbn. eexists. split; [done|].
    intros [|[|p]] Hp; [apply U4|apply U3|lia].
Qed.
Print Assumptions C63_simple_bounds.
(** C63: in Stone's model the relative permeability of oil is never negative, and
    never above those of the two pairs of phases if neither pair has more than
    krocw in sum. *)
Theorem C63_stone_bounds F s kr0 : phases F true true → tables_defined F → (3 ≤ length s)%nat → (3 ≤ length kr0)%nat → 0 < sf_krocw F →
  let krw := tab (sf_krw F) (val s 0) in let krg := tab (sf_krg F) (val s 2) in let krow := tab (sf_krow F) (val s 0 + val s 2) in let krog := tab (sf_krog F) (val s 2) in
  ∃ kr, eval_kr Stone2 F s kr0 = Some kr ∧ 0 <= val kr 1 ∧
    (0 <= krw → 0 <= krg → 0 <= krow → 0 <= krog → krow + sf_krocw F * krw <= sf_krocw F → krog + sf_krocw F * krg <= sf_krocw F → val kr 1 <= krow ∧ val kr 1 <= krog).
Proof.
  intros HP HD Hs Hk HK. destruct (list3 s Hs) as (a & b & c & rs & ->). destruct (list3 kr0 Hk) as (k0 & k1 & k2 & rk & ->).
  unfold val. cbn [lookup list_lookup default from_option Datatypes.id]. cbn zeta. rewrite (stone3_eq F HP HD ltac:(lra)). eexists. split; [done|]. cbn. split; [apply clip_nonneg|].
  unfold oil_at, stone_oil. set (K := sf_krocw F) in *. set (w := tab (sf_krw F) a). set (g := tab (sf_krg F) c). set (ow := tab (sf_krow F) (a + c)). set (og := tab (sf_krog F) c).
  intros Hw Hg How Hog S1 S2.
  assert (E : K * ((ow / K + w) * (og / K + g) - w - g) = (ow + K * w) * (og + K * g) / K - K * w - K * g) by (field; lra). rewrite E.
  set (u := ow + K * w) in *. set (v := og + K * g) in *.
  assert (0 <= K * w) by (apply Rmult_le_pos; lra). assert (0 <= K * g) by (apply Rmult_le_pos; lra).
  assert (u * v / K <= u ∧ u * v / K <= v) as [B1 B2].
  { split; (apply Rmult_le_reg_r with K; [done|]; unfold Rdiv; rewrite Rmult_assoc, Rinv_l by lra; unfold u, v in *; nra). }
  unfold clip. destruct (Rlt_dec _ 0); unfold u, v in *; lra.
Qed.
Print Assumptions C63_stone_bounds.
(** C63: without gas Stone's model is that of water and oil, if the tables meet
    there. *)
Theorem C63_stone_limit F a b r k0 k1 k2 rk : phases F true true → tables_defined F → sf_krocw F ≠ 0 →
  tab (sf_krg F) 0 = 0 → tab (sf_krog F) 0 = sf_krocw F → 0 <= tab (sf_krow F) a →
  eval_kr Stone2 F (a :: b :: 0 :: r) (k0 :: k1 :: k2 :: rk) = Some (tab (sf_krw F) a :: tab (sf_krow F) a :: 0 :: rk).
Proof.
  intros HP HD HK Hg Hog How. rewrite (stone3_eq F HP HD HK). unfold oil_at, stone_oil. rewrite Hg, Hog, Rplus_0_r.
  match goal with |- context [clip ?x] => replace x with (tab (sf_krow F) a) by (field; done) end. by rewrite clip_id.
Qed.
Print Assumptions C63_stone_limit.

(** ** Capillary pressure *)
(** C63: oil has capillary pressure 0, every other phase that of its table, and
    the matrix of evalPcDeriv holds the derivatives in all directions. *)
Theorem C63_pc F w g s pc0 d0 : phases F w g → let np := pu_num (sf_pu F) in (np ≤ length s)%nat → (np ≤ length pc0)%nat → (np * np ≤ length d0)%nat →
  defined (sf_pcow F) → defined (sf_pcog F) → (w = true → has_slope (sf_pcow F) (val s 0)) → (g = true → has_slope (sf_pcog F) (val s (np - 1))) →
  ∃ pc M, eval_pc_deriv F s pc0 d0 = Some (pc, M) ∧ eval_pc F s pc0 = Some pc ∧
    pc = (if w then [tab (sf_pcow F) (val s 0)] else []) ++ [0] ++ (if g then [tab (sf_pcog F) (val s (np - 1))] else []) ++ drop np pc0 ∧
    drop (np * np) M = drop (np * np) d0 ∧
    ∀ d p, length d = length s → (p < np)%nat → changes (λ s, eval_pc F s pc0) s d p (row np M p d).
Proof.
  intros HP np Hs Hp Hd D1 D2 S1 S2. subst np. destruct (phases_cases F w g HP) as [(-> & -> & Epu)|[(-> & -> & Epu)|(-> & -> & Epu)]]; rewrite Epu in Hs, Hp, Hd, S2 |- *; cbn in Hs, Hp, Hd, S2 |- *.
  - destruct (list3 s Hs) as (a & b & c & rs & ->). destruct (list3 pc0 Hp) as (k0 & k1 & k2 & rk & ->). destruct (list9 d0 Hd) as (e0 & e1 & e2 & e3 & e4 & e5 & e6 & e7 & e8 & re & ->).
    destruct (S1 eq_refl) as [v1 [T1 V1]]. destruct (S2 eq_refl) as [v2 [T2 V2]]. unfold val in *. cbn in T1, V1, T2, V2.
    assert (EK : ∀ a b c r, eval_pc F (a :: b :: c :: r) (k0 :: k1 :: k2 :: rk) = Some (tab (sf_pcow F) a :: 0 :: tab (sf_pcog F) c :: rk)).
    { intros x y z r. unfold eval_pc, used, pos. rewrite Epu. cbn. rewrite (defined_tab _ _ D1). cbn. rewrite (defined_tab _ _ D2). done. }
    exists (tab (sf_pcow F) a :: 0 :: tab (sf_pcog F) c :: rk), (v1 :: 0 :: 0 :: 0 :: 0 :: 0 :: 0 :: 0 :: v2 :: re). split; [|split; [apply EK|split; [done|split; [done|]]]].
    { unfold eval_pc_deriv, used, pos. rewrite Epu. cbn. rewrite (defined_tab _ _ D1). cbn. rewrite T1. cbn. rewrite (defined_tab _ _ D2). cbn. rewrite T2. done. }
    intros d p HL Hp'. destruct d as [|q0 [|q1 [|q2 rd]]]; try (cbn in HL; lia).
    exists (λ t, match p with 0%nat => tab (sf_pcow F) (a + t * q0) | 1%nat => 0 | _ => tab (sf_pcog F) (c + t * q2) end), 1. split; [lra|]. split.
    + intros t _. eexists. split; [apply EK|]. destruct p as [|[|[|p]]]; [done|done|done|lia].
    + destruct p as [|[|[|p]]]; [| | |lia]; unfold row, val; cbn [rsum seq lookup list_lookup Nat.add Nat.mul default from_option Datatypes.id].
      * eapply dl_eq; [apply dl_tab, V1|lra].
      * eapply dl_eq; [apply (derivable_pt_lim_const 0)|lra].
      * eapply dl_eq; [apply dl_tab, V2|lra].
  - destruct (list2 s Hs) as (a & b & rs & ->). destruct (list2 pc0 Hp) as (k0 & k1 & rk & ->). destruct (list4 d0 Hd) as (e0 & e1 & e2 & e3 & re & ->).
    destruct (S1 eq_refl) as [v1 [T1 V1]]. unfold val in *. cbn in T1, V1.
    assert (EK : ∀ a b r, eval_pc F (a :: b :: r) (k0 :: k1 :: rk) = Some (tab (sf_pcow F) a :: 0 :: rk)).
    { intros x y r. unfold eval_pc, used, pos. rewrite Epu. cbn. rewrite (defined_tab _ _ D1). done. }
    exists (tab (sf_pcow F) a :: 0 :: rk), (v1 :: 0 :: 0 :: 0 :: re). split; [|split; [apply EK|split; [done|split; [done|]]]].
    { unfold eval_pc_deriv, used, pos. rewrite Epu. cbn. rewrite (defined_tab _ _ D1). cbn. rewrite T1. done. }
    intros d p HL Hp'. destruct d as [|q0 [|q1 rd]]; try (cbn in HL; lia).
    exists (λ t, match p with 0%nat => tab (sf_pcow F) (a + t * q0) | _ => 0 end), 1. split; [lra|]. split.
    + intros t _. eexists. split; [apply EK|]. destruct p as [|[|p]]; [done|done|lia].
    + destruct p as [|[|p]]; [| |lia]; unfold row, val; cbn [rsum seq lookup list_lookup Nat.add Nat.mul default from_option Datatypes.id].
      * eapply dl_eq; [apply dl_tab, V1|lra].
      * eapply dl_eq; [apply (derivable_pt_lim_const 0)|lra].
  - destruct (list2 s Hs) as (a & b & rs & ->). destruct (list2 pc0 Hp) as (k0 & k1 & rk & ->). destruct (list4 d0 Hd) as (e0 & e1 & e2 & e3 & re & ->).
    destruct (S2 eq_refl) as [v2 [T2 V2]]. unfold val in *. cbn in T2, V2.
    assert (EK : ∀ a b r, eval_pc F (a :: b :: r) (k0 :: k1 :: rk) = Some (0 :: tab (sf_pcog F) b :: rk)).
    { intros x y r. unfold eval_pc, used, pos. rewrite Epu. cbn. rewrite (defined_tab _ _ D2). done. }
    exists (0 :: tab (sf_pcog F) b :: rk), (0 :: 0 :: 0 :: v2 :: re). split; [|split; [apply EK|split; [done|split; [done|]]]].
    { unfold eval_pc_deriv, used, pos. rewrite Epu. cbn. rewrite (defined_tab _ _ D2). cbn. rewrite T2. done. }
    intros d p HL Hp'. destruct d as [|q0 [|q1 rd]]; try (cbn in HL; lia).
    exists (λ t, match p with 0%nat => 0 | _ => tab (sf_pcog F) (b + t * q1) end), 1. split; [lra|]. split.
    + intros t _. eexists. split; [apply EK|]. destruct p as [|[|p]]; [done|done|lia].
    + destruct p as [|[|p]]; [| |lia]; unfold row, val; cbn [rsum seq lookup list_lookup Nat.add Nat.mul default from_option Datatypes.id].
      * eapply dl_eq; [apply (derivable_pt_lim_const 0)|lra].
      * eapply dl_eq; [apply dl_tab, V2|lra].
Qed.
Print Assumptions C63_pc.
