(** Saturation functions of a reservoir and end-point scaling (C64). *)
From Coq Require Import Reals Lra Psatz.
From Verif Require Import Base LoopModel LoopProof TableModel TofSpec MiscSpec PhaseModel UTableProof NTableProof NTableProps KrModel KrSpec KrProof KrProps KrSeg KrInitModel KrInit EpsModel EpsSpec EpsProof.
Local Open Scope R_scope.
Unset Default Proof Using.

(** ** Scaling of both curves *)
(** The points of the tables of [F]. *)
Definition water_points (F : satfunc) (swmax : R) : points := Points (sf_swcr F) (1 - sf_sowcr F) swmax (sf_krwr F) (sf_krwmax F).
Definition oil_points (F : satfunc) (swco : R) : points := Points (sf_sowcr F) (1 - sf_swcr F) (1 - swco) (sf_krorw F) (sf_kromax F).
(** The saturation function of water and oil: curves through its points. *)
Record two_curves (F : satfunc) (swco swmax : R) : Prop := {
  tc_phases : phases F true false; tc_def : defined (sf_krw F) ∧ defined (sf_krow F);
  tc_smax : sf_smax F !! 0%nat = Some swmax ∧ sf_smax F !! 1%nat = Some (1 - swco);
  tc_order : swco <= sf_swcr F ∧ sf_swcr F < 1 - sf_sowcr F ∧ 1 - sf_sowcr F <= swmax;
  tc_water : curve (between swco swmax) (water_points F swmax) (tab (sf_krw F));
  tc_oil : curve (between (1 - swmax) (1 - swco)) (oil_points F swco) (λ y, tab (sf_krow F) (1 - y)) }.

(** C64: with end-point scaling the relative permeabilities of water and oil are
    curves through the scaled points. *)
Theorem C64_scaled P F cell swco swmax ss kr0 : func_for_cell P cell = Some F → sp_pu P = sf_pu F → two_curves F swco swmax →
  let E := sp_eps P in let three := sp_3pt P in
  let r_w := minus_from_1 (e_sowcr E) in let r_o := minus_from_1 (e_swcr E) in let mx_o := minus_from_1 (e_swl E) in
  proper three (e_swcr E) r_w (e_swu E) (e_krw E) (e_krwr E) (e_kro E) (water_points F swmax) cell →
  proper three (e_sowcr E) r_o mx_o (e_kro E) (e_krorw E) (e_kro E) (oil_points F swco) cell →
  (2 ≤ length ss)%nat → (2 ≤ length kr0)%nat →
  ∃ fw fo, curve (allowed (e_swcr E) (e_swu E) swco swmax) (scaled three (e_swcr E) r_w (e_swu E) (e_krw E) (e_krwr E) (water_points F swmax) cell) fw ∧
    curve (allowed (e_sowcr E) mx_o (1 - swmax) (1 - swco)) (scaled three (e_sowcr E) r_o mx_o (e_kro E) (e_krorw E) (oil_points F swco) cell) fo ∧
    ∀ sw so rest, allowed (e_swcr E) (e_swu E) swco swmax sw → allowed (e_sowcr E) mx_o (1 - swmax) (1 - swco) so →
      relperm_eps Simple P ss (sw :: so :: rest) cell kr0 false = Some (fw sw :: fo so :: drop 2 kr0).
Proof.
  intros HF Hpu [HP [D1 D2] [M0 M1] (O1 & O2 & O3) CW CO] E three r_w r_o mx_o PW PO Hss Hkr.
  destruct (C64_one three (e_swcr E) r_w (e_swu E) (e_krw E) (e_krwr E) (e_kro E) (water_points F swmax) cell swco (tab (sf_krw F))) as (fw & Cw & Ew); [done..|].
  destruct (C64_one three (e_sowcr E) r_o mx_o (e_kro E) (e_krorw E) (e_kro E) (oil_points F swco) cell (1 - swmax) (λ y, tab (sf_krow F) (1 - y))) as (fo & Co & Eo); [cbn; lra|cbn; lra|cbn; lra|done|done|].
  exists fw, fo. split; [done|]. split; [done|]. intros sw so rest Hw Ho.
  destruct (Ew sw Hw) as (yw & S1 & _ & V1). destruct (Eo so Ho) as (yo & S2 & _ & V2). cbn [water_points oil_points p_cr p_r p_mx p_kr p_k] in S1, S2, V1, V2.
  destruct (list2 ss Hss) as (a0 & a1 & ra & ->). destruct (list2 kr0 Hkr) as (k0 & k1 & rk & ->).
  assert (Epu : sf_pu F = PhaseUsage 2 [1; 1; 0]%nat [0; 1; 2]%nat). { destruct (phases_cases _ _ _ HP) as [(_ & ? & _)|[(_ & _ & ?)|(? & _)]]; done. }
  unfold relperm_eps. rewrite Hpu, Epu. cbn [pu_pos phase_index lookup list_lookup mbind option_bind]. rewrite HF. cbn [mbind option_bind lookup list_lookup]. rewrite M0, M1. cbn [mbind option_bind].
  fold E three. fold r_w r_o mx_o. rewrite S1. cbn [mbind option_bind]. rewrite upd_Some by (cbn; lia). cbn [mbind option_bind]. rewrite S2. cbn [mbind option_bind]. rewrite upd_Some by (cbn; lia). cbn [mbind option_bind insert list_insert].
  assert (eval_kr Simple F (yw :: yo :: ra) (k0 :: k1 :: rk) = Some (tab (sf_krw F) yw :: tab (sf_krow F) (1 - yo) :: rk)) as ->.
  { unfold eval_kr, two, used, pos. rewrite Epu. cbn. rewrite (defined_tab _ yw D1). cbn. by rewrite defined_tab by done. }
  cbn [mbind option_bind lookup list_lookup]. rewrite V1. cbn [mbind option_bind]. rewrite upd_Some by (cbn; lia). cbn [mbind option_bind insert list_insert lookup list_lookup]. rewrite V2. cbn [mbind option_bind]. rewrite upd_Some by (cbn; lia). done.
Qed.

(** Tables of a deck are such curves. *)
Theorem C64_tables F0 swof sgof k pu sw krw krow pcow : phases (SatFunc (sf_smin F0) (sf_smax F0) (sf_krwmax F0) (sf_kromax F0) (sf_swcr F0) (sf_krwr F0) (sf_sowcr F0) (sf_krorw F0) pu
    (sf_krw F0) (sf_krow F0) (sf_pcow F0) (sf_krg F0) (sf_krog F0) (sf_pcog F0) (sf_krocw F0)) true false →
  length (sf_smin F0) = 3%nat → length (sf_smax F0) = 3%nat →
  good_swof sw krw krow pcow → swof !! k = Some [sw; krw; krow; pcow] → 0 < val krw (length sw - 1) → 0 < val krow 0 →
  ∃ F, sat_init mk_nonuniform Simple F0 swof sgof k pu = Some F ∧ sf_pu F = pu ∧ critical F sw krw krow ∧ (sf_swcr F < 1 - sf_sowcr F → two_curves F (val sw 0) (val sw (length sw - 1))).
Proof.
  intros HP L1 L2 G Hk Hw Ho. destruct (C63_init F0 swof sgof k pu false sw krw krow pcow [] [] [] []) as (F & E & HPF & Hc & Ew & Eo & _ & _ & X0 & _ & X1 & _ & LX & _); try done.
  exists F. split; [done|]. split.
  { destruct (phases_cases _ _ _ HPF) as [(_ & ? & _)|[(_ & _ & E1)|(? & _)]]; [done| |done]. destruct (phases_cases _ _ _ HP) as [(_ & ? & _)|[(_ & _ & E2)|(? & _)]]; [done| |done]. cbn in E2. congruence. }
  split; [done|]. intros Hlt. destruct G as [G1 G2 G3 G4 G5 G6 G7 G8 G9]. pose proof Hc as [C1 C2 C3 C4 C5 C6 C7 C8 C9 C10 C11]. set (n := length sw) in *.
  assert (LK : ∀ i, (i < 3)%nat → sf_smax F !! i = Some (val (sf_smax F) i)). { intros i Hi. destruct (lookup_lt_is_Some_2 (sf_smax F) i ltac:(lia)) as [v Hv]. unfold val. by rewrite Hv. }
  split.
  - done.
  - rewrite Ew, Eo. split; intros x; apply (C63_nonuniform (NTable sw _ [] [])); cbn; try done; lia.
  - rewrite !LK, X0, X1 by lia. done.
  - lra.
  - split; cbn [water_points p_cr p_r p_mx p_kr p_k]; unfold between.
    + intros x z Hx Hz Hxz. rewrite Ew. pose proof (col_mono sw G5 G1 1 krw x z G2 G6 Hxz) as H. unfold col in H. lra.
    + intros x Hx Hle. apply C1. lra.
    + intros _. by apply C8.
    + intros x Hx Hge. assert (x = val sw (n - 1)) as -> by lra. done.
  - split; cbn [oil_points p_cr p_r p_mx p_kr p_k]; unfold between.
    + intros x z Hx Hz Hxz. rewrite Eo. pose proof (col_mono sw G5 G1 (-1) krow (1 - z) (1 - x) G3 G7 ltac:(lra)) as H. unfold col in H. lra.
    + intros x Hx Hle. apply C4. lra.
    + intros _. replace (1 - (1 - sf_swcr F)) with (sf_swcr F) by lra. by apply C7.
    + intros x Hx Hge. replace (1 - x) with (val sw 0) by lra. done.
Qed.
Print Assumptions C64_scaled.
Print Assumptions C64_tables.
