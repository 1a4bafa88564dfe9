(** Saturation functions (C63): cases, and where the code is wrong. *)
From Coq Require Import Reals Lra Psatz.
From Verif Require Import Base LoopModel TableModel TofSpec MiscSpec PhaseModel PhaseProps UTableProof UTableProps NTableProof NTableProps MonoModel MonoProps KrModel KrSpec KrProof KrProps KrSeg KrInitModel KrInit.
Local Open Scope R_scope.
Unset Default Proof Using.

(** A deck: connate water 1/4; all curves are straight lines. *)
Definition ex_sw : list R := [/ 4; 1].
Definition ex_sg : list R := [0; 3 / 4].
Definition ex_swof : list (list (list R)) := [[ex_sw; [0; 1]; [1; 0]; [0; 0]]].
Definition ex_sgof : list (list (list R)) := [[ex_sg; [0; 1]; [1; 0]; [0; 0]]].
Definition ex_pu : phase_usage := PhaseUsage 3 [1; 1; 1]%nat [0; 1; 2]%nat.
Definition ex_none : table := Table (λ _, None) (λ _, None).
(** The object before init; [j] is what its critical water saturation happens to be. *)
Definition ex_junk (j : R) : satfunc := SatFunc [0; 0; 0] [0; 0; 0] 0 0 j 0 0 0 ex_pu ex_none ex_none ex_none ex_none ex_none ex_none 0.
Definition ex_t (x y : list R) : table := of_ntable (NTable x y [] []).
(** The object after init. *)
Definition ex_F (m : model) : satfunc :=
  match m with
  | Simple => SatFunc [/ 4; 1 - 1; 0] [1; 1 - / 4; 3 / 4] 1 1 (/ 4) 1 (1 - 1) 1 ex_pu (ex_t ex_sw [0; 1]) (ex_t ex_sw [1; 0]) (ex_t ex_sw [0; 0]) (ex_t ex_sg [0; 1]) (ex_t ex_sg [1; 0]) (ex_t ex_sg [0; 0]) 1
  | _ => SatFunc [/ 4; 1 - 1; 0] [1; 1 - / 4; 3 / 4] 0 0 2 0 0 0 ex_pu (ex_t ex_sw [0; 1]) (ex_t ex_sw [1; 0]) (ex_t ex_sw [0; 0]) (ex_t ex_sg [0; 1]) (ex_t ex_sg [1; 0]) (ex_t ex_sg [0; 0]) 1
  end.
Lemma ordered2 a b : a < b → ordered 1 [a; b].
Proof. intros H. split; [by left|]. intros [|[|i]] [|[|j]] x y Hij Hx Hy; cbn in *; simplify_eq; try lia; lra. Qed.
Lemma ex_sw_ok : ordered 1 ex_sw. Proof. apply ordered2. lra. Qed.
Lemma ex_sg_ok : ordered 1 ex_sg. Proof. apply ordered2. lra. Qed.

Example ex_init m : sat_init mk_nonuniform m (ex_junk 2) ex_swof ex_sgof 0 ex_pu = Some (ex_F m).
Proof.
  assert (E1 : ∀ y, mk_nonuniform ex_sw y = Some (ex_t ex_sw y)) by (intros y; unfold mk_nonuniform; by rewrite nt_make_ordered by apply ex_sw_ok).
  assert (E2 : ∀ y, mk_nonuniform ex_sg y = Some (ex_t ex_sg y)) by (intros y; unfold mk_nonuniform; by rewrite nt_make_ordered by apply ex_sg_ok).
  unfold sat_init. cbn -[init_water init_gas]. assert (EW : ∀ F, sf_pu F = ex_pu → sf_smin F = [0; 0; 0] → sf_smax F = [0; 0; 0] → init_water mk_nonuniform m F ex_swof 0 =
    Some (match m with Simple => SatFunc [/ 4; 0; 0] [1; 0; 0] 1 1 (/ 4) 1 (1 - 1) 1 (sf_pu F) (ex_t ex_sw [0; 1]) (ex_t ex_sw [1; 0]) (ex_t ex_sw [0; 0]) (sf_krg F) (sf_krog F) (sf_pcog F) 1
      | _ => SatFunc [/ 4; 0; 0] [1; 0; 0] (sf_krwmax F) (sf_kromax F) (sf_swcr F) (sf_krwr F) (sf_sowcr F) (sf_krorw F) (sf_pu F) (ex_t ex_sw [0; 1]) (ex_t ex_sw [1; 0]) (ex_t ex_sw [0; 0]) (sf_krg F) (sf_krog F) (sf_pcog F) 1 end, / 4, 1)).
  { intros F Ep Em EM. unfold init_water, ex_swof. cbn [mbind option_bind lookup list_lookup head last]. unfold pos. rewrite Ep, Em, EM.
    destruct m; cbn [mbind option_bind]; [destruct (Req_EM_T 0 0); [|done]; cbn [mbind option_bind]| |]; rewrite !E1; cbn; [|done|done].
    destruct (Rlt_dec 0 1); [|lra]. cbn. destruct (Rlt_dec 0 1); [|lra]. done. }
  rewrite EW by done. cbn -[init_gas].
  assert (EG : ∀ F, sf_pu F = ex_pu → sf_smin F = [/ 4; 0; 0] → sf_smax F = [1; 0; 0] → init_gas mk_nonuniform F ex_sgof 0 (/ 4) =
    Some (SatFunc [/ 4; 0; 0] [1; 0; 3 / 4] (sf_krwmax F) (sf_kromax F) (sf_swcr F) (sf_krwr F) (sf_sowcr F) (sf_krorw F) (sf_pu F) (sf_krw F) (sf_krow F) (sf_pcow F) (ex_t ex_sg [0; 1]) (ex_t ex_sg [1; 0]) (ex_t ex_sg [0; 0]) (sf_krocw F))).
  { intros F Ep Em EM. unfold init_gas, ex_sgof. cbn [mbind option_bind lookup list_lookup]. unfold pos. rewrite Ep, Em, EM, !E2. cbn.
    replace (3 / 4 + / 4 - 1) with 0 by lra. rewrite Rabs_R0. destruct (Rlt_dec (/ 1000) 0); [lra|]. done. }
  assert (EB : bool_decide (1%nat ≠ 0%nat) = true) by done. destruct m; cbn -[init_gas ex_sgof]; rewrite !EB; cbn -[init_gas ex_sgof]; rewrite ?EB; rewrite EG by done; done.
Qed.
Lemma ex_phases m : phases (ex_F m) true true.
Proof. exists [0; 0; 0]%nat, [0; 0; 0]%nat, (λ _, true). destruct m; repeat split. Qed.
(** The tables are lines, also beyond their ends. *)
Lemma ex_line a b c d x : a < b → tv (ex_t [a; b] [c; d]) x = Some (c + (d - c) * ((x - a) / (b - a))).
Proof.
  intros H. assert (O : ordered 1 [a; b]) by by apply ordered2. cbn. unfold nt_eval, linear_interpolation.
  destruct (table_index_spec 1 [a; b] x 2 O ltac:(cbn; lia) (le_n _)) as (i & E & Hi & _). cbn in Hi. assert (i = 0%nat) as -> by lia.
  cbn -[table_index]. rewrite E. cbn. unfold rdiv. destruct (Req_EM_T (b - a) 0); [lra|]. cbn. f_equal. field. lra.
Qed.
Lemma ex_slope a b c d x : a < b → slope (ex_t [a; b] [c; d]) x ((d - c) / (b - a)).
Proof.
  intros H. split.
  - assert (O : ordered 1 [a; b]) by by apply ordered2. cbn. unfold nt_derivative, linear_derivative.
    destruct (table_index_spec 1 [a; b] x 2 O ltac:(cbn; lia) (le_n _)) as (i & E & Hi & _). cbn in Hi. assert (i = 0%nat) as -> by lia.
    cbn -[table_index]. rewrite E. cbn. unfold rdiv. destruct (Req_EM_T (b - a) 0); [lra|]. cbn. done.
  - eapply dl_ext; [eapply dl_eq; [apply (dl_lin (c - (d - c) * (a / (b - a))) ((d - c) / (b - a)))|done]|]. intros t. unfold tab. rewrite ex_line by done. cbn. field. lra.
Qed.
Lemma ex_defined m : tables_defined (ex_F m).
Proof. destruct m; repeat split; intros x; cbn [ex_F sf_krw sf_krow sf_krg sf_krog]; unfold ex_sw, ex_sg; rewrite ex_line by lra; eauto. Qed.
Lemma ex_krw m x : tab (sf_krw (ex_F m)) x = (x - / 4) * (4 / 3).
Proof. destruct m; cbn [ex_F sf_krw]; unfold tab, ex_sw; rewrite ex_line by lra; cbn; lra. Qed.
Lemma ex_krow m x : tab (sf_krow (ex_F m)) x = 1 - (x - / 4) * (4 / 3).
Proof. destruct m; cbn [ex_F sf_krow]; unfold tab, ex_sw; rewrite ex_line by lra; cbn; lra. Qed.
Lemma ex_krg m x : tab (sf_krg (ex_F m)) x = x * (4 / 3).
Proof. destruct m; cbn [ex_F sf_krg]; unfold tab, ex_sg; rewrite ex_line by lra; cbn; lra. Qed.
Lemma ex_krog m x : tab (sf_krog (ex_F m)) x = 1 - x * (4 / 3).
Proof. destruct m; cbn [ex_F sf_krog]; unfold tab, ex_sg; rewrite ex_line by lra; cbn; lra. Qed.
Lemma ex_krw' m x : slope (sf_krw (ex_F m)) x (4 / 3).
Proof. replace (4 / 3) with ((1 - 0) / (1 - / 4)) by lra. destruct m; apply ex_slope; lra. Qed.
Lemma ex_krow' m x : slope (sf_krow (ex_F m)) x (- (4 / 3)).
Proof. replace (- (4 / 3)) with ((0 - 1) / (1 - / 4)) by lra. destruct m; apply ex_slope; lra. Qed.
Lemma ex_krg' m x : slope (sf_krg (ex_F m)) x (4 / 3).
Proof. replace (4 / 3) with ((1 - 0) / (3 / 4 - 0)) by lra. destruct m; apply ex_slope; lra. Qed.
Lemma ex_krog' m x : slope (sf_krog (ex_F m)) x (- (4 / 3)).
Proof. replace (- (4 / 3)) with ((0 - 1) / (3 / 4 - 0)) by lra. destruct m; apply ex_slope; lra. Qed.
Lemma ex_has t x v : slope t x v → has_slope t x. Proof. by exists v. Qed.
#[local] Hint Resolve ex_has ex_krw' ex_krow' ex_krg' ex_krog' : kr.

(** The hypotheses of C63_simple3, C63_stone3_partial and C63_gwseg3 hold at 1/2, 1/4, 1/4. *)
Example ex_simple3 : ∃ kr M, eval_kr_deriv Simple (ex_F Simple) [/ 2; / 4; / 4] [0; 0; 0] (replicate 9 0) = Some (kr, M) ∧ val kr 1 = / 3.
Proof.
  destruct (C63_simple3 (ex_F Simple) (ex_phases _) (ex_defined _) [/ 2; / 4; / 4] [0; 0; 0] (replicate 9 0)) as (kr & M & E & _ & Ek & _); try (cbn; lia); eauto with kr.
  { left. rewrite ex_krow. unfold val. cbn. lra. }
  exists kr, M. split; [done|]. rewrite Ek. cbn [app]. unfold val. cbn -[tab]. rewrite (ex_krow Simple). lra.
Qed.
Lemma ex_oil a c : oil_at (ex_F Stone2) a c = 1 - (a - / 4) * (4 / 3) - c * (8 / 3).
Proof. unfold oil_at, stone_oil. rewrite ex_krw, ex_krow, ex_krg, ex_krog. cbn [ex_F sf_krocw]. field. Qed.
Example ex_gwseg3 : ∃ kr M, eval_kr_deriv Gwseg (ex_F Gwseg) [/ 2; / 4; / 4] [0; 0; 0] (replicate 9 0) = Some (kr, M).
Proof.
  destruct (C63_gwseg3 (ex_F Gwseg) (ex_phases _) (ex_defined _) (/ 4) eq_refl [/ 2; / 4; / 4] [0; 0; 0] (replicate 9 0)) as (kr & M & E & _); try (cbn; lia); eauto with kr; unfold val, eps; cbn; lra.
Qed.
(** The hypotheses of C63_init hold. *)
Example ex_good : good_swof ex_sw [0; 1] [1; 0] [0; 0].
Proof.
  split; try (cbn; done || lia); try apply ex_sw_ok; (split; [auto|]); intros [|[|i]] [|[|j]] x y Hij Hx Hy; cbn in *; simplify_eq; try lia; lra.
Qed.
Example ex_critical : ∃ F, sat_init mk_nonuniform Simple (ex_junk 2) ex_swof ex_sgof 0 ex_pu = Some F ∧ critical F ex_sw [0; 1] [1; 0].
Proof.
  destruct (C63_init (ex_junk 2) ex_swof ex_sgof 0 ex_pu true ex_sw [0; 1] [1; 0] [0; 0] ex_sg [0; 1] [1; 0] [0; 0]) as (F & E & _ & Hc & _); eauto; try done.
  - apply (ex_phases Simple).
  - apply ex_good.
  - intros _. split; [done|]. split; [apply ex_sg_ok|]. split; [cbn; lia|]. unfold val. cbn. replace (3 / 4 + / 4 - 1) with 0 by lra. rewrite Rabs_R0. lra.
Qed.
(** Those of C63_build. *)
Example ex_build junk : ∃ t, build_uniform junk [0; / 2; 1] [0; / 8; 1] 5 = Some t ∧ tab (of_utable t) 0 = 0 ∧ tab (of_utable t) 1 = 1.
Proof.
  destruct (C63_build junk [0; / 2; 1] [0; / 8; 1] 5) as (t & s & E & _ & _ & _ & H0 & H1 & _); try done; try (cbn; lia).
  - split; [by left|]. intros [|[|[|i]]] [|[|[|j]]] x y Hij Hx Hy; cbn in *; simplify_eq; try lia; lra.
  - exists t. split; [done|]. split; [rewrite H0|rewrite H1]; unfold val; cbn; lra.
Qed.

(** ** Where the code is wrong *)
Lemma changes_unique f s d p v v' : changes f s d p v → changes f s d p v' → v = v'.
Proof.
  intros (g & δ & Hδ & Hg & D) (g' & δ' & Hδ' & Hg' & D'). apply (uniqueness_limite g 0); [done|].
  intros e He. destruct (D' e He) as [η Hη]. assert (Hm : 0 < Rmin (RIneq.pos η) (Rmin δ δ')) by (repeat apply Rmin_glb_lt; [apply cond_pos|done|done]).
  exists (mkposreal _ Hm). intros h H0 Hh. cbn in Hh. pose proof (Rmin_l (RIneq.pos η) (Rmin δ δ')). pose proof (Rmin_r (RIneq.pos η) (Rmin δ δ')). pose proof (Rmin_l δ δ'). pose proof (Rmin_r δ δ').
  assert (EG : ∀ t, Rabs t < Rmin δ δ' → g t = g' t). { intros t Ht. destruct (Hg t) as (k & E1 & E2); [lra|]. destruct (Hg' t) as (k' & E3 & E4); [lra|]. rewrite E1 in E3. injection E3 as <-. congruence. }
  rewrite !EG. { apply Hη; [done|lra]. } { rewrite Rabs_R0. by apply Rmin_glb_lt. } { rewrite Rplus_0_l. lra. }
Qed.
(** Stone's model: the derivative of the oil curve by the gas saturation is wrong. *)
Theorem C63_stone_derivative_refuted : ∃ F s d kr M, sat_init mk_nonuniform Stone2 (ex_junk 2) ex_swof ex_sgof 0 ex_pu = Some F ∧ phases F true true ∧
  s = [/ 2; 3 / 8; / 8] ∧ d = [0; -1; 1] ∧ eval_kr_deriv Stone2 F s [0; 0; 0] (replicate 9 0) = Some (kr, M) ∧ 0 < val kr 1 ∧
  (∃ v, changes (λ s, eval_kr Stone2 F s [0; 0; 0]) s d 1 v) ∧ ¬ changes (λ s, eval_kr Stone2 F s [0; 0; 0]) s d 1 (row 3 M 1 d).
Proof.
  destruct (C63_stone3_partial (ex_F Stone2) (ex_phases _) (ex_defined _) ltac:(cbn; lra) [/ 2; 3 / 8; / 8] [0; 0; 0] (replicate 9 0)) as (kr & M & E & _ & Ek & _ & H); try (cbn; lia); eauto with kr.
  { rewrite ex_oil. unfold val. cbn. lra. }
  exists (ex_F Stone2), [/ 2; 3 / 8; / 8], [0; -1; 1], kr, M. split; [apply ex_init|]. split; [apply ex_phases|]. split; [done|]. split; [done|]. split; [done|].
  split. { rewrite Ek. cbn [app]. unfold val. cbn -[oil_at]. rewrite ex_oil. lra. }
  destruct (H [0; -1; 1] 1%nat eq_refl ltac:(lia)) as [_ H2]. specialize (H2 _ (ex_krg' Stone2 _) eq_refl). cbv zeta in H2. split; [eauto|].
  intros H1. pose proof (changes_unique _ _ _ _ _ _ H1 H2) as EQ. rewrite ex_krw, ex_krog, ex_krg in EQ. cbn [ex_F sf_krocw] in EQ. set (r := row 3 M 1 _) in *. clearbody r. unfold val in EQ. cbn in EQ. lra.
Qed.
(** Stone's model at connate water is not that of oil and gas. *)
Theorem C63_stone_connate_refuted : ∃ F sg kr, sat_init mk_nonuniform Stone2 (ex_junk 2) ex_swof ex_sgof 0 ex_pu = Some F ∧ phases F true true ∧
  tab (sf_krw F) (/ 4) = 0 ∧ tab (sf_krow F) (/ 4) = sf_krocw F ∧ 0 < sg < 3 / 8 ∧ eval_kr Stone2 F [/ 4; 3 / 4 - sg; sg] [0; 0; 0] = Some kr ∧
  0 < val kr 1 ∧ val kr 1 < tab (sf_krog F) sg.
Proof.
  exists (ex_F Stone2), (/ 4). eexists. split; [apply ex_init|]. split; [apply ex_phases|]. rewrite ex_krw, ex_krow, ex_krog. split; [lra|]. split; [cbn; lra|]. split; [lra|].
  split; [apply (stone3_eq _ (ex_phases _) (ex_defined _)); cbn; lra|]. unfold val. cbn -[oil_at]. rewrite ex_oil. rewrite clip_id; lra.
Qed.
#[local] Arguments ex_F : simpl never.
(** The simple model: its matrix does not hold the partial derivatives. *)
Theorem C63_simple_partial_derivative_refuted : ∃ F s d kr M, sat_init mk_nonuniform Simple (ex_junk 2) ex_swof ex_sgof 0 ex_pu = Some F ∧ phases F true true ∧
  s = [/ 2; / 4; / 4] ∧ d = [1; 0; 0] ∧ eval_kr_deriv Simple F s [0; 0; 0] (replicate 9 0) = Some (kr, M) ∧ 0 < val kr 1 ∧
  changes (λ s, eval_kr Simple F s [0; 0; 0]) s d 1 (- (4 / 3)) ∧ row 3 M 1 d = 0.
Proof.
  exists (ex_F Simple), [/ 2; / 4; / 4], [1; 0; 0]. do 2 eexists. split; [apply ex_init|]. split; [apply ex_phases|]. split; [done|]. split; [done|].
  destruct (ex_defined Simple) as (D1 & D2 & D3 & D4).
  split. { unfold eval_kr_deriv, simple3_deriv. rewrite (three_usage _ (ex_phases Simple)). cbn -[ex_F].
    rewrite (defined_tab _ _ D1). cbn -[ex_F]. rewrite (proj1 (ex_krw' Simple _)). cbn -[ex_F]. rewrite (defined_tab _ _ D3). cbn -[ex_F]. rewrite (proj1 (ex_krg' Simple _)). cbn -[ex_F]. rewrite (defined_tab _ _ D2). cbn -[ex_F]. rewrite (proj1 (ex_krow' Simple _)). cbn -[ex_F].
    rewrite ex_krow. ev. destruct (Rlt_dec _ 0); [lra|]. ev. done. }
  split; [unfold val; cbn; lra|]. split; [|unfold row, val; cbn; lra].
  exists (λ t, 2 / 3 - 2 / 3 * 0 - / 3 - t * (4 / 3)), (/ 4). split; [lra|]. split.
  - intros t Ht. apply Rabs_def2 in Ht. eexists. split; [unfold along; cbn [zip_with]; apply (simple3_eq _ (ex_phases _) (ex_defined _))|]. cbn -[ex_F]. f_equal. rewrite ex_krow. rewrite clip_id; lra.
  - eapply dl_ext; [eapply dl_eq; [apply (dl_lin (/ 3) (- (4 / 3)))|done]|]. intros; lra.
Qed.
(** Oil cut off at 0 keeps the derivative of the table. *)
Theorem C63_cut_off_refuted : ∃ F s d kr M, sat_init mk_nonuniform Simple (ex_junk 2) ex_swof ex_sgof 0 ex_pu = Some F ∧ phases F true true ∧
  s = [3 / 4; - / 4; / 2] ∧ d = [-1; 1; 0] ∧ keeps_sum 3 d ∧ eval_kr_deriv Simple F s [0; 0; 0] (replicate 9 0) = Some (kr, M) ∧ val kr 1 = 0 ∧
  changes (λ s, eval_kr Simple F s [0; 0; 0]) s d 1 0 ∧ row 3 M 1 d = 4 / 3.
Proof.
  exists (ex_F Simple), [3 / 4; - / 4; / 2], [-1; 1; 0]. do 2 eexists. split; [apply ex_init|]. split; [apply ex_phases|]. split; [done|]. split; [done|]. split; [unfold keeps_sum, val; cbn; lra|].
  destruct (ex_defined Simple) as (D1 & D2 & D3 & D4).
  split. { unfold eval_kr_deriv, simple3_deriv. rewrite (three_usage _ (ex_phases Simple)). cbn -[ex_F].
    rewrite (defined_tab _ _ D1). cbn -[ex_F]. rewrite (proj1 (ex_krw' Simple _)). cbn -[ex_F]. rewrite (defined_tab _ _ D3). cbn -[ex_F]. rewrite (proj1 (ex_krg' Simple _)). cbn -[ex_F]. rewrite (defined_tab _ _ D2). cbn -[ex_F]. rewrite (proj1 (ex_krow' Simple _)). cbn -[ex_F].
    rewrite ex_krow. ev. destruct (Rlt_dec _ 0); [|lra]. ev. done. }
  split; [done|]. split; [|unfold row, val; cbn; lra].
  exists (λ t, 0), (/ 8). split; [lra|]. split.
  - intros t Ht. apply Rabs_def2 in Ht. eexists. split; [unfold along; cbn [zip_with]; apply (simple3_eq _ (ex_phases _) (ex_defined _))|]. cbn -[ex_F]. f_equal. rewrite ex_krow. unfold clip. destruct (Rlt_dec _ 0); [done|lra].
  - apply derivable_pt_lim_const.
Qed.
(** Segregation: evalKrDeriv divides by zero at connate water without gas, where
    evalKr does not. *)
Theorem C63_gwseg_connate_refuted : ∃ F s, sat_init mk_nonuniform Gwseg (ex_junk 2) ex_swof ex_sgof 0 ex_pu = Some F ∧ phases F true true ∧ s = [/ 4; 3 / 4; 0] ∧
  eval_kr Gwseg F s [0; 0; 0] = Some [0; 1; 0] ∧ ∀ d0, eval_kr_deriv Gwseg F s [0; 0; 0] d0 = None.
Proof.
  exists (ex_F Gwseg), [/ 4; 3 / 4; 0]. split; [apply ex_init|]. split; [apply ex_phases|]. split; [done|]. split.
  - rewrite (proj2 (C63_gwseg_limits (ex_F Gwseg) (ex_phases _) (ex_defined _) (/ 4) eq_refl (/ 4) (3 / 4) 0 [] 0 0 0 [])) by lra. rewrite ex_krog, ex_krg. do 2 f_equal. f_equal; [lra|]. f_equal. lra.
  - intros d0. destruct (ex_defined Gwseg) as (D1 & D2 & D3 & D4). unfold eval_kr_deriv. rewrite (three_usage _ (ex_phases Gwseg)). cbn [pu_num]. destruct (fill0 _ d0) as [d|]; cbn [mbind option_bind]; [|done]. rewrite decide_True by done. unfold gwseg3_deriv. 
    assert (pos (ex_F Gwseg) Aqua = Some 0%nat) as -> by done. cbn [mbind option_bind lookup list_lookup]. change (sf_smin (ex_F Gwseg) !! 0%nat) with (Some (/ 4)). cbn [mbind option_bind lookup list_lookup phase_index].
    rewrite (Rmax_left (/ 4) (/ 4)) by lra. rewrite rdiv_Some. 2:{ pose proof (Rmax_r (0 + / 4 - / 4) eps). unfold eps in *. lra. } cbn [mbind option_bind].
    rewrite (defined_tab _ _ D1), (defined_tab _ _ D2), (defined_tab _ _ D3), (defined_tab _ _ D4). cbn [mbind option_bind]. rewrite !upd_Some by (cbn; lia). cbn [mbind option_bind]. rewrite upd_Some by (cbn; lia). cbn [mbind option_bind]. rewrite upd_Some by (cbn; lia). cbn [mbind option_bind].
    rewrite (proj1 (ex_krw' Gwseg _)), (proj1 (ex_krg' Gwseg _)), (proj1 (ex_krow' Gwseg _)), (proj1 (ex_krog' Gwseg _)). cbn [mbind option_bind]. assert (Z : ∀ u, rdiv u (/ 4 - / 4 + 0) = None) by (intros u; unfold rdiv; destruct (Req_EM_T (/ 4 - / 4 + 0) 0); [done|lra]).
    rewrite !Z.
    done.
Qed.
(** Segregation below connate water: the curves do not depend on the water
    saturation, their derivatives say they do. *)
Theorem C63_gwseg_below_refuted : ∃ F s d kr M, sat_init mk_nonuniform Gwseg (ex_junk 2) ex_swof ex_sgof 0 ex_pu = Some F ∧ phases F true true ∧ s = [/ 8; 5 / 8; / 4] ∧ d = [1; -1; 0] ∧
  eval_kr_deriv Gwseg F s [0; 0; 0] (replicate 9 0) = Some (kr, M) ∧ changes (λ s, eval_kr Gwseg F s [0; 0; 0]) s d 0 0 ∧ row 3 M 0 d = 4 / 3.
Proof.
  exists (ex_F Gwseg), [/ 8; 5 / 8; / 4], [1; -1; 0]. do 2 eexists. split; [apply ex_init|]. split; [apply ex_phases|]. split; [done|]. split; [done|].
  destruct (ex_defined Gwseg) as (D1 & D2 & D3 & D4). split.
  { unfold eval_kr_deriv. rewrite (three_usage _ (ex_phases Gwseg)). cbn [pu_num]. assert (fill0 (3 * 3) (replicate 9 0) = Some (replicate 9 0)) as -> by done. cbn [mbind option_bind]. rewrite decide_True by done. unfold gwseg3_deriv.
    assert (pos (ex_F Gwseg) Aqua = Some 0%nat) as -> by done. cbn [mbind option_bind lookup list_lookup]. change (sf_smin (ex_F Gwseg) !! 0%nat) with (Some (/ 4)). cbn [mbind option_bind lookup list_lookup phase_index].
    rewrite (Rmax_right (/ 8) (/ 4)) by lra. rewrite (Rmax_left (/ 4 + / 4 - / 4) eps) by (unfold eps; lra). rewrite rdiv_Some by lra. cbn [mbind option_bind].
    rewrite (defined_tab _ _ D1), (defined_tab _ _ D2), (defined_tab _ _ D3), (defined_tab _ _ D4). cbn [mbind option_bind]. rewrite !upd_Some by (cbn; lia). cbn [mbind option_bind]. rewrite upd_Some by (cbn; lia). cbn [mbind option_bind]. rewrite upd_Some by (cbn; lia). cbn [mbind option_bind].
    rewrite (proj1 (ex_krw' Gwseg _)), (proj1 (ex_krg' Gwseg _)), (proj1 (ex_krow' Gwseg _)), (proj1 (ex_krog' Gwseg _)). cbn [mbind option_bind]. rewrite !rdiv_Some by lra. cbn -[ex_F tab]. reflexivity. }
  split.
  - exists (λ t, 0), (/ 8). split; [lra|]. split; [|apply derivable_pt_lim_const]. intros t Ht. apply Rabs_def2 in Ht. eexists. split; [unfold along; cbn [zip_with]; apply (C63_gwseg_limits (ex_F Gwseg) (ex_phases _) (ex_defined _) (/ 4) eq_refl); lra|done].
  - unfold row, val. cbn -[ex_F tab]. rewrite (ex_krw Gwseg). field.
Qed.
(** The models of Stone and of segregation do not set the critical saturations that
    end-point scaling uses. *)
Theorem C63_init_refuted m : m ≠ Simple → ∃ F, sat_init mk_nonuniform m (ex_junk 2) ex_swof ex_sgof 0 ex_pu = Some F ∧ good_swof ex_sw [0; 1] [1; 0] [0; 0] ∧ sf_swcr F = 2 ∧ ¬ critical F ex_sw [0; 1] [1; 0].
Proof.
  intros Hm. exists (ex_F m). split; [apply ex_init|]. split; [apply ex_good|]. split; [by destruct m|]. intros [_ _ [_ H] _ _ _ _ _ _ _ _]. destruct m; [done| |]; unfold val, ex_F, ex_sw in H; cbn in H; lra.
Qed.
Print Assumptions C63_stone_derivative_refuted.
Print Assumptions C63_stone_connate_refuted.
Print Assumptions C63_simple_partial_derivative_refuted.
Print Assumptions C63_cut_off_refuted.
Print Assumptions C63_gwseg_connate_refuted.
Print Assumptions C63_gwseg_below_refuted.
Print Assumptions C63_init_refuted.
