(** Cases for C65, and what does not hold. *)
From Coq Require Import Reals Lra Psatz.
From Verif Require Import Base LoopModel LoopProof TableModel TofSpec MiscSpec UTableProof NTableProof NTableProps PhaseModel KrModel KrSpec KrProof KrProps KrCases PvtModel PvtMakeModel PvtSpec PvtProof PvtProps PvtGas.
Local Open Scope R_scope.
Unset Default Proof Using.

Lemma idx2 (a b x : R) : a < b → table_index 2 [a; b] x = Some 0%nat.
Proof. intros H. destruct (table_index_spec 1 [a; b] x 2 (ordered2 a b H)) as (i & -> & Hi & _); [cbn; lia|cbn; lia|]. cbn in Hi. f_equal. lia. Qed.
Lemma lin2 (a b c d x : R) : a < b → linear_interpolation 2 [a; b] [c; d] x = Some (line a c b d x) ∧ linear_derivative 2 [a; b] [c; d] x = Some ((d - c) / (b - a)).
Proof. intros H. apply (linear_of_index 2 [a; b] [c; d] x 0); first [reflexivity|by apply idx2|lra]. Qed.
Lemma through2 (a b c d x : R) : a < b → through [a; b] [c; d] x = line a c b d x.
Proof. intros H. unfold through. cbn [length]. by destruct (lin2 a b c d x H) as [-> _]. Qed.
Lemma ordered2' (a b : R) : b < a → ordered (-1) [a; b].
Proof. intros H. split; [by right|]. intros [|[|i]] [|[|j]] x y Hij Hx Hy; cbn in *; try lia; simplify_eq; try lra; done. Qed.
Lemma idx2' (a b x : R) : b < a → table_index 2 [a; b] x = Some 0%nat.
Proof. intros H. destruct (table_index_spec (-1) [a; b] x 2 (ordered2' a b H)) as (i & -> & Hi & _); [cbn; lia|cbn; lia|]. cbn in Hi. f_equal. lia. Qed.
Lemma through2' (a b c d x : R) : b < a → through [a; b] [c; d] x = line a c b d x.
Proof. intros H. unfold through. cbn [length]. destruct (linear_of_index 2 [a; b] [c; d] x 0 a b c d) as [-> _]; first [reflexivity|by apply idx2'|lra]. Qed.

(** Oil and gas only; Rs from 0 to 2 at pressures 10 and 20. *)
Definition ex_pos : list nat := [0; 0; 1]%nat.
Definition ex_oil : live := Live [[10; 20]; [1; 1]; [1; 1]; [0; 2]] [[[10; 20]; [1; 2]; [1; 1]]; [[20; 30]; [1; 1]; [1; 1]]].
Example ex_oil_tables : live_tables ex_oil [10; 20] [1; 1] [1; 1] [0; 2].
Proof.
  split; [done|cbn; lia|apply ordered2; lra|]. split; [done|]. repeat constructor; eexists _, _, _, 1; (split; [reflexivity|]); (split; [cbn; lia|]); (split; [done|]); (split; [done|]); apply ordered2; lra.
Qed.
Example ex_volumes : volumes ex_pos [1; 1] 1 1.
Proof. done. Qed.
(** The value of B is 1 below the bubble point, and smaller from there on. *)
Lemma ex_oil_val q : miscible_oil ex_oil ex_pos q [1; 1] 1 false = Some (if Rlt_dec q 15 then 1 else 1 + (q - 10) / 20).
Proof.
  destruct (oil_cases ex_oil _ _ _ _ ex_pos [1; 1] 1 1 1 q ex_oil_tables (ordered2 0 2 ltac:(lra)) ex_volumes ltac:(by left)) as (i & w & t0 & t1 & a0 & a1 & y0 & y1 & σ0 & σ1 & T0 & T1 & A0 & A1 & Y0 & Y1 & _ & _ & _ & _ & _ & _ & Ei & Ew & -> & _).
  change (length [0; 2]) with 2%nat in Ei. rewrite idx2 in Ei by lra. injection Ei as <-. cbn in T0, T1. injection T0 as <-. injection T1 as <-. cbn in A0, A1, Y0, Y1. injection A0 as <-. injection A1 as <-. injection Y0 as <-. injection Y1 as <-.
  assert (EM : max_rs 1 1 = 1) by (unfold max_rs; destruct (Req_EM_T 1 0); lra). rewrite EM in *. unfold val in Ew. cbn in Ew. cbn [item_of]. rewrite !through2 by lra. unfold line.
  destruct (Rlt_dec _ 1), (Rlt_dec q 15); try lra; f_equal; subst w; field.
Qed.
(** Both sides of the bubble point meet the hypotheses of [C65_oil_rate]. *)
Example ex_oil_rate p : p = 12 ∨ p = 17 → ∃ v d, miscible_oil ex_oil ex_pos p [1; 1] 1 true = Some d ∧ value_rate (λ q, miscible_oil ex_oil ex_pos q [1; 1] 1 false) p v d.
Proof.
  intros Hp. destruct (C65_oil_rate ex_oil _ _ _ _ ex_pos [1; 1] 1 1 1 p ex_oil_tables (ordered2 0 2 ltac:(lra)) ex_volumes ltac:(by left)) as [_ H]. apply H.
  - rewrite !elem_of_cons. intros [?|[?|?%elem_of_nil]]; lra.
  - intros t a Ht Ha. apply elem_of_cons in Ht as [->|[->|?%elem_of_nil]%elem_of_cons]; [| |done]; cbn in Ha; injection Ha as <-; rewrite !elem_of_cons; intros [?|[?|?%elem_of_nil]]; lra.
  - rewrite through2 by lra. unfold max_rs, line. destruct (Req_EM_T 1 0); lra.
Qed.
(** B is not continuous at the bubble point: above it, values at the same pressure of
    the tables of two solution factors are interpolated, although one of these tables
    starts at a higher pressure. *)
Theorem C65_oil_continuous_refuted : ∃ L ps bs ms rs pos z liq vap p, live_tables L ps bs ms rs ∧ ordered 1 rs ∧ volumes pos z liq vap ∧
  through ps rs p = max_rs liq vap ∧ oil_B L pos p z = Some (4 / 5) ∧ ∀ q, q < p → oil_B L pos q z = Some 1.
Proof.
  exists ex_oil, [10; 20], [1; 1], [1; 1], [0; 2], ex_pos, [1; 1], 1, 1, 15. split; [exact ex_oil_tables|]. split; [apply ordered2; lra|]. split; [done|]. split.
  - rewrite through2 by lra. unfold max_rs, line. destruct (Req_EM_T 1 0); lra.
  - unfold oil_B. split; [|intros q Hq]; rewrite ex_oil_val; cbn [mbind option_bind]; destruct (Rlt_dec _ 15); try lra; (rewrite rdiv_Some by lra; f_equal; field).
Qed.
Print Assumptions C65_oil_continuous_refuted.
(** A gas whose B grows with the pressure; Rv is 1, the tables go down to 0. *)
Definition ex_gas : live := Live [[10; 20]; [1; 2]; [1; 1]; [1; 1]] [[[1; 0]; [1; 1]; [1; 1]]; [[1; 0]; [2; 2]; [1; 1]]].
Example ex_gas_tables : live_tables ex_gas [10; 20] [1; 2] [1; 1] [1; 1].
Proof.
  split; [done|cbn; lia|apply ordered2; lra|]. split; [done|]. repeat constructor; eexists _, _, _, (-1); (split; [reflexivity|]); (split; [cbn; lia|]); (split; [done|]); (split; [done|]); apply ordered2'; lra.
Qed.
Example ex_gas_volumes : volumes ex_pos [1; 2] 1 2.
Proof. done. Qed.
Example ex_gas_rate : ∃ v d, gas_dB ex_gas ex_pos 15 [1; 2] = Some (v, d) ∧ value_rate (λ q, gas_B ex_gas ex_pos q [1; 2]) 15 v d.
Proof.
  apply (C65_gas_B ex_gas _ _ _ _ ex_pos [1; 2] 1 2 15 ex_gas_tables ex_gas_volumes).
  - rewrite !elem_of_cons. intros [?|[?|?%elem_of_nil]]; lra.
  - right. right. rewrite through2 by lra. unfold line, val. cbn. lra.
Qed.
(** Outside the tabulated pressures B of undersaturated gas is constant, but dBdp is not 0. *)
Theorem C65_gas_outside_refuted : ∃ G ps bs ms rs pos z liq vap p, live_tables G ps bs ms rs ∧ volumes pos z liq vap ∧ liq / vap < through ps rs p ∧
  gas_dB G pos p z = Some (2, 1 / 10) ∧ ∀ q, 20 < q → gas_B G pos q z = Some 2.
Proof.
  exists ex_gas, [10; 20], [1; 2], [1; 1], [1; 1], ex_pos, [1; 2], 1, 2, 25. split; [exact ex_gas_tables|]. split; [done|]. split; [rewrite through2 by lra; unfold line; lra|].
  assert (HQ : ∀ q, 20 < q → miscible_gas ex_gas ex_pos q [1; 2] 1 false = Some 2 ∧ miscible_gas ex_gas ex_pos q [1; 2] 1 true = Some (1 / 10)).
  { intros q Hq. destruct (gas_cases ex_gas _ _ _ _ ex_pos [1; 2] 1 2 1 q ex_gas_tables ex_gas_volumes ltac:(lra) ltac:(by left)) as [-> ->]. unfold at_factor. cbn [ex_gas lv_und map lookup list_lookup]. rewrite (through2' 1 0 1 1), (through2' 1 0 2 2), (through2 10 20 1 1) by lra.
    replace (line 1 1 0 1 (1 / 2)) with 1 by (unfold line; field). replace (line 1 2 0 2 (1 / 2)) with 2 by (unfold line; field). replace (line 10 1 20 1 q) with 1 by (unfold line; field).
    change (val [10; 20] 0) with 10. change (val [10; 20] (length [10; 20] - 1)) with 20. change (val [1; 2] (length [10; 20] - 1)) with 2. change (length [10; 20]) with 2%nat. destruct (Rlt_dec 1 (1 / 2)); [lra|]. destruct (Rlt_dec q 10); [lra|]. destruct (Rlt_dec 20 q); [|lra]. split; [done|].
    destruct (lin2 10 20 1 2 q ltac:(lra)) as [_ ->]. f_equal. field. }
  unfold gas_dB, gas_B. split; [|intros q Hq]; (change (vol ex_pos Vapour [1; 2]) with (Some 2)); cbn [mbind option_bind]; (destruct (Req_EM_T 2 0); [lra|]).
  - destruct (HQ 25 ltac:(lra)) as [-> ->]. done.
  - by destruct (HQ q Hq) as [-> _].
Qed.
Print Assumptions C65_gas_outside_refuted.
(** A deck whose second record has one row: the constructor accepts it, but between the
    two pressures the table of one row is read beyond its end. *)
Theorem C65_gas_one_row_refuted : ∃ recs G, gas_make [recs] = Some G ∧ ∀ p, 10 <= p <= 20 → gas_B G ex_pos p [1; 2] = None.
Proof.
  exists [[10; 1; 1; 1; 0; 1; 1]; [20; 1; 2; 1]], (Live [[10; 20]; [1; 2]; [1; 1]; [1; 1]] [[[1; 0]; [1; 1]; [1; 1]]; [[1]; [2]; [1]]]). split; [reflexivity|]. intros p Hp. unfold gas_B. change (vol ex_pos Vapour [1; 2]) with (Some 2). cbn [mbind option_bind]. destruct (Req_EM_T 2 0); [lra|].
  unfold miscible_gas. cbn [lv_sat lv_und mbind option_bind lookup list_lookup length]. rewrite idx2 by lra. cbn [mbind option_bind]. assert (EI : interp [[10; 20]; [1; 2]; [1; 1]; [1; 1]] 0 3 p = Some (line 10 1 20 1 p)) by (apply (lin2 10 20 1 1 p); lra). rewrite EI. cbn [mbind option_bind].
  change (vol ex_pos Liquid [1; 2]) with (Some 1). change (vol ex_pos Vapour [1; 2]) with (Some 2). cbn [mbind option_bind]. rewrite (rdiv_Some 1 2) by lra. cbn [mbind option_bind]. unfold line. destruct (Rlt_dec _ _); [lra|].
  cbn [lookup list_lookup mbind option_bind Nat.sub Nat.add]. destruct (Rlt_dec p 10); [lra|]. rewrite andb_false_r. destruct (Rgt_dec p 20); [lra|]. rewrite andb_false_r. rewrite (rdiv_Some _ (20 - 10)) by lra. cbn [mbind option_bind length]. rewrite decide_False by lia.
  destruct (interp [[1; 0]; [1; 1]; [1; 1]] 0 1 (1 / 2)); [|done]. cbn [mbind option_bind]. unfold interp. cbn [lookup list_lookup mbind option_bind length]. unfold linear_interpolation, table_index. cbn [length]. case_decide; [|lia]. reflexivity.
Qed.
Print Assumptions C65_gas_one_row_refuted.
(** Water and dead oil of constant compressibility, and all phases at two points. *)
Example ex_const : ∃ b d, cc_dB (ConstCompr 100 1 (1 / 10) 1 0) 110 = Some (b, d) ∧ 0 < b ∧ d < 0.
Proof. destruct (C65_const (ConstCompr 100 1 (1 / 10) 1 0) 110) as (b & d & E & _ & H1 & _ & _ & H2). exists b, d. cbn in *. split; [done|]. split; [apply H1|apply H2]; lra. Qed.
Example ex_blackoil : ∃ d o, bo_one pvt_B [PConst (cc_make_visc 1); POil ex_oil] (PhaseUsage 2 [0; 1; 1]%nat ex_pos) 2 [12; 17] [1; 1; 1; 1] [] (replicate 4 7) = Some (d, o) ∧ o !! 2%nat = Some 1 ∧ o !! 3%nat = oil_B ex_oil ex_pos 17 [1; 1].
Proof.
  destruct (C65_blackoil [PConst (cc_make_visc 1); POil ex_oil] (PhaseUsage 2 [0; 1; 1]%nat ex_pos) 2 [12; 17] [1; 1; 1; 1] [] (replicate 4 7) B_at pvt_B) as (d & o & E & _ & V & _).
  - right. by left.
  - cbn. lia.
  - cbn. lia.
  - cbn. lia.
  - cbn [pu_num pu_pos]. intros [|[|ph]] x i q Hph Hx Hi Hq; cbn in Hx; try lia; injection Hx as <-.
    + cbn. unfold cc_B. cbn. destruct (Req_EM_T 0 0); [eauto|done].
    + assert (HI : ∀ q, is_Some (oil_B ex_oil ex_pos q [1; 1])). { intros y. unfold oil_B. rewrite ex_oil_val. cbn [mbind option_bind]. destruct (Rlt_dec y 15); (rewrite rdiv_Some by lra; eauto). }
      destruct i as [|[|i]]; [|apply HI|lia]. apply (HI q).
  - exists d, o. split; [exact E|]. split.
    + etransitivity; [apply (V 0%nat (PConst (cc_make_visc 1)) 1%nat 17); cbn; auto; lia|]. cbn. unfold cc_B. cbn. destruct (Req_EM_T 0 0); done.
    + apply (V 1%nat (POil ex_oil) 1%nat 17); cbn; auto; lia.
Qed.
