(** Saturation functions of a reservoir (C64): cases, and where the code is wrong. *)
From Coq Require Import Reals Lra Psatz.
From Verif Require Import Base LoopModel TableModel TofSpec MiscSpec PhaseModel PhaseProps UTableProof NTableProof NTableProps KrModel KrSpec KrProof KrProps KrSeg KrInitModel KrInit KrCases EpsModel EpsSpec EpsProof EpsProps EpsPoints EpsMany EpsInit.
Local Open Scope R_scope.
Unset Default Proof Using.

(** Water and oil; connate water 1/4.  [c_line]: straight lines from 1/4 to 1;
    [c_bent]: oil is immobile from 3/4 on. *)
Definition c_pu : phase_usage := PhaseUsage 2 [1; 1; 0]%nat [0; 1; 2]%nat.
Definition c_junk : satfunc := SatFunc [0; 0; 0] [0; 0; 0] 0 0 2 0 0 0 c_pu ex_none ex_none ex_none ex_none ex_none ex_none 0.
Definition c_sw3 : list R := [/ 4; 3 / 4; 1].
Definition c_bent : list (list (list R)) := [[c_sw3; [0; / 2; 1]; [1; 0; 0]; [0; 0; 0]]].
Definition c_line : list (list (list R)) := ex_swof.
Definition c_Fbent : satfunc := SatFunc [/ 4; 1 - 1; 0] [1; 1 - / 4; 0] 1 1 (/ 4) (/ 2) (1 - 3 / 4) 1 c_pu (ex_t c_sw3 [0; / 2; 1]) (ex_t c_sw3 [1; 0; 0]) (ex_t c_sw3 [0; 0; 0]) ex_none ex_none ex_none 1.
Definition c_Fline (m : model) : satfunc :=
  match m with
  | Simple => SatFunc [/ 4; 1 - 1; 0] [1; 1 - / 4; 0] 1 1 (/ 4) 1 (1 - 1) 1 c_pu (ex_t ex_sw [0; 1]) (ex_t ex_sw [1; 0]) (ex_t ex_sw [0; 0]) ex_none ex_none ex_none 1
  | _ => SatFunc [/ 4; 1 - 1; 0] [1; 1 - / 4; 0] 0 0 2 0 0 0 c_pu (ex_t ex_sw [0; 1]) (ex_t ex_sw [1; 0]) (ex_t ex_sw [0; 0]) ex_none ex_none ex_none 1
  end.
Lemma c_sw3_ok : ordered 1 c_sw3.
Proof. split; [by left|]. intros [|[|[|i]]] [|[|[|j]]] x y Hij Hx Hy; cbn in *; simplify_eq; try lia; lra. Qed.
Lemma c_bent_init : sat_init mk_nonuniform Simple c_junk c_bent [] 0 c_pu = Some c_Fbent.
Proof.
  assert (E1 : ∀ y, mk_nonuniform c_sw3 y = Some (ex_t c_sw3 y)) by (intros y; unfold mk_nonuniform; by rewrite nt_make_ordered by apply c_sw3_ok).
  unfold sat_init. cbn -[init_water]. unfold init_water, c_bent. cbn -[mk_nonuniform c_sw3]. destruct (Req_EM_T 0 0); [|done]. cbn -[mk_nonuniform c_sw3]. rewrite !E1. cbn.
  destruct (Rlt_dec 0 (/ 2)); [|lra]. cbn. destruct (Rlt_dec 0 0); [lra|]. cbn. destruct (Rlt_dec 0 1); [|lra]. cbn. done.
Qed.
Lemma c_line_init m : sat_init mk_nonuniform m c_junk c_line [] 0 c_pu = Some (c_Fline m).
Proof.
  assert (E1 : ∀ y, mk_nonuniform ex_sw y = Some (ex_t ex_sw y)) by (intros y; unfold mk_nonuniform; by rewrite nt_make_ordered by apply ex_sw_ok).
  unfold sat_init. cbn -[init_water]. unfold init_water, c_line, ex_swof. destruct m; cbn -[mk_nonuniform ex_sw]; [destruct (Req_EM_T 0 0); [|done]| |]; cbn -[mk_nonuniform ex_sw]; rewrite !E1; cbn;
   [destruct (Rlt_dec 0 1); [|lra]; cbn; destruct (Rlt_dec 0 1); [|lra]; cbn| |]; done.
Qed.
(** A deck for one cell. *)
Definition c_deck (three : bool) (swof : list (list (list R))) (f : kw → option R) : deck := Deck None swof [] (Some (true, true)) three (λ k, x ← f k; Some [x]) None None.
Definition c_grid : grid := Grid 1 3 None [0; 0; 0].
Definition c_arr (f : kw → option R) (k : kw) : list R := match f k with Some x => [x] | None => [] end.
Definition c_P (three : bool) (F : satfunc) (f : kw → option R) : satprops :=
  SatProps c_pu [F] [] (Eps (c_arr f SWL) (c_arr f SWCR) (c_arr f SWU) (c_arr f SOWCR) (c_arr f KRW) (c_arr f KRWR) (c_arr f KRO) (c_arr f KRORW)) true three.
Lemma c_init m three swof f F : length swof = 1%nat → sat_init mk_nonuniform m c_junk swof [] 0 c_pu = Some F → length (sf_smin F) = 3%nat → length (sf_smax F) = 3%nat →
  sp_init mk_nonuniform m (λ _, c_junk) c_pu (c_deck three swof f) c_grid = Some (c_P three F f).
Proof.
  intros Hl HF L1 L2. destruct swof as [|t [|]]; try done. unfold sp_init.
  change (pu_used c_pu !! phase_index Liquid) with (Some 1%nat). change (pu_used c_pu !! phase_index Aqua) with (Some 1%nat). change (pu_used c_pu !! phase_index Vapour) with (Some 0%nat). cbn [mbind option_bind].
  rewrite (decide_False (P := 1%nat = 0%nat)) by lia. cbn [d_satnum c_deck mbind option_bind d_swof d_sgof length].
  rewrite (decide_False (P := 1%nat ≠ 0%nat ∧ _)) by (intros [_ ?]; lia). rewrite (decide_False (P := 0%nat ≠ 0%nat ∧ _)) by (intros [? _]; lia). rewrite (decide_False (P := 1%nat ≠ 0%nat ∧ _)) by (intros (_ & ? & _); lia).
  rewrite (decide_True (P := 1%nat ≠ 0%nat)) by lia. cbn [seq mapM]. rewrite HF. cbn [mbind option_bind mret option_ret d_endscale c_deck]. rewrite (decide_False (P := 1%nat = 0%nat ∨ _)) by lia. cbn [d_scalecrs].
  assert (HE : ∀ k, init_eps (SatProps c_pu [F] [] (Eps [] [] [] [] [] [] [] []) true three) (c_deck three [t] f) c_grid k [] = Some (c_arr f k)).
  { intros k. unfold init_eps, c_arr. cbn. destruct (f k) as [x|]; cbn; [|by destruct (is_S k)].
    destruct (sf_smin F) as [|m0 rm] eqn:E1; [done|]. destruct (sf_smax F) as [|n0 rn] eqn:E2; [done|].
    assert (∃ y, from_table k 0 F = Some y) as [y ->] by (destruct k; cbn; rewrite ?E1, ?E2; eauto). done. }
  unfold c_deck in HE |- *. rewrite !HE. done.
Qed.

(** ** A proper case: three points, with most of the arrays *)
Definition c_f1 (k : kw) : option R := match k with SWCR => Some (3 / 8) | SOWCR => Some (/ 8) | KRW => Some (4 / 5) | KRWR => Some (2 / 5) | KRO => Some (9 / 10) | _ => None end.
Lemma c_good : good_swof c_sw3 [0; / 2; 1] [1; 0; 0] [0; 0; 0].
Proof.
  split; try (cbn; done || lia); try apply c_sw3_ok; (split; [auto|]); intros [|[|[|i]]] [|[|[|j]]] x y Hij Hx Hy; cbn in *; simplify_eq; try lia; lra.
Qed.
Lemma c_curves : two_curves c_Fbent (/ 4) 1.
Proof.
  destruct (C64_tables c_junk c_bent [] 0 c_pu c_sw3 [0; / 2; 1] [1; 0; 0] [0; 0; 0]) as (F & E & _ & _ & H); try done.
  - exists [0; 0; 0]%nat, [0; 0; 0]%nat, (λ p, match p with GAS => false | _ => true end). repeat split.
  - apply c_good.
  - cbn. lra.
  - cbn. lra.
  - rewrite c_bent_init in E. injection E as <-. apply H. cbn. lra.
Qed.
Example C64_case : sp_init mk_nonuniform Simple (λ _, c_junk) c_pu (c_deck true c_bent c_f1) c_grid = Some (c_P true c_Fbent c_f1) ∧
  ∃ fw fo, (∀ sw so, relperm_eps Simple (c_P true c_Fbent c_f1) [0; 0] [sw; so] 0 [0; 0] false = Some [fw sw; fo so]) ∧
    fw (3 / 8) = 0 ∧ fw (7 / 8) = 2 / 5 ∧ fw 1 = 4 / 5 ∧ fo (/ 8) = 0 ∧ fo (5 / 8) = 9 / 10 ∧ fo (3 / 4) = 9 / 10.
Proof.
  split; [by apply c_init; [|apply c_bent_init|..]|].
  destruct (C64_scaled (c_P true c_Fbent c_f1) c_Fbent 0 (/ 4) 1 [0; 0] [0; 0]) as (fw & fo & [_ W1 W2 W3] & [_ O1 O2 O3] & H); try done; [apply c_curves| | |].
  - split; cbn.
    + unfold has. cbn. repeat split; (by left) || (right; lia).
    + unfold val. cbn. lra.
    + done.
    + split; [done|]. intros _. lra.
    + intros _. unfold near, middle, eff, val. cbn. lra.
  - split; cbn.
    + unfold has. cbn. repeat split; (by left) || (right; lia).
    + unfold val. cbn. lra.
    + done.
    + split; [|done]. intros _ _. lra.
    + done.
  - exists fw, fo. split; [intros sw so; apply H; done|]. cbn in W1, W2, W3, O1, O2, O3. unfold val, anywhere in *. cbn in *.
    split; [apply W1; [done|lra]|]. split; [replace (7 / 8) with (1 - / 8) by lra; rewrite W2 by done; lra|]. split; [apply W3; [done|lra]|].
    split; [apply O1; [done|lra]|]. split; [replace (5 / 8) with (1 - 3 / 8) by lra; rewrite O2 by done; lra|]. apply O3; [done|lra].
Qed.

(** ** Where the code is wrong *)
Lemma c_unfold m three F f sw so w o g ssw sso kw ko vw vo : sf_smax F = [w; o; g] →
  scale_sat three (c_arr f SWCR) (minus_from_1 (c_arr f SOWCR)) (c_arr f SWU) (sf_swcr F) (1 - sf_sowcr F) w 0 sw = Some ssw →
  scale_sat three (c_arr f SOWCR) (minus_from_1 (c_arr f SWCR)) (minus_from_1 (c_arr f SWL)) (sf_sowcr F) (1 - sf_swcr F) o 0 so = Some sso →
  eval_kr m F [ssw; sso] [0; 0] = Some [kw; ko] →
  scale_val three (c_arr f SWCR) (minus_from_1 (c_arr f SOWCR)) (c_arr f SWU) (c_arr f KRW) (c_arr f KRWR) (c_arr f KRO) (sf_swcr F) (1 - sf_sowcr F) w (sf_krwmax F) (sf_krwr F) 0 sw kw = vw →
  (∀ v, vw = Some v → scale_val three (c_arr f SOWCR) (minus_from_1 (c_arr f SWCR)) (minus_from_1 (c_arr f SWL)) (c_arr f KRO) (c_arr f KRORW) (c_arr f KRO) (sf_sowcr F) (1 - sf_swcr F) o (sf_kromax F) (sf_krorw F) 0 so ko = Some vo) →
  relperm_eps m (c_P three F f) [0; 0] [sw; so] 0 [0; 0] false = v ← vw; Some [v; vo].
Proof.
  intros Hm E1 E2 E3 E4 E5. unfold relperm_eps. cbn [sp_pu c_P c_pu pu_pos phase_index lookup list_lookup mbind option_bind func_for_cell sp_map sp_funcs sp_eps sp_3pt]. rewrite Hm. cbn [lookup list_lookup mbind option_bind e_swl e_swcr e_swu e_sowcr e_krw e_krwr e_kro e_krorw].
  rewrite E1. cbn [mbind option_bind]. rewrite upd_Some by (cbn; lia). cbn [mbind option_bind]. rewrite E2. cbn [mbind option_bind]. rewrite upd_Some by (cbn; lia). cbn [mbind option_bind insert list_insert].
  rewrite E3. cbn [lookup list_lookup mbind option_bind]. rewrite E4. destruct vw as [v|]; [|done]. cbn [lookup list_lookup mbind option_bind]. rewrite upd_Some by (cbn; lia). cbn [mbind option_bind insert list_insert lookup list_lookup].
  rewrite (E5 v eq_refl). cbn [mbind option_bind]. rewrite upd_Some by (cbn; lia). done.
Qed.
#[local] Arguments ex_t : simpl never.
Lemma c_half : tv (ex_t c_sw3 [0; / 2; 1]) (/ 2) = Some (/ 4).
Proof.
  unfold ex_t. cbn. unfold nt_eval, linear_interpolation. destruct (table_index_spec 1 c_sw3 (/ 2) 3 c_sw3_ok ltac:(cbn; lia) (le_n _)) as (i & E & Hi & H).
  assert (i = 0%nat) as ->. { destruct i as [|[|i]]; [done| |cbn in Hi; lia]. exfalso. destruct H as [[?|(t & Ht & H)] _]; [done|]. cbn in Ht. simplify_eq. lra. }
  cbn -[table_index c_sw3]. rewrite E. cbn. rewrite rdiv_Some by lra. cbn. f_equal. lra.
Qed.
Ltac ev2 := cbn; repeat (first [rewrite (decide_False (P := 2%nat = 3%nat)) by lia | rewrite (bool_decide_eq_true_2 (1%nat ≠ 0%nat)) by lia | rewrite upd_Some by (cbn; lia) | rewrite c_half | rewrite ex_line by lra]; cbn).
Lemma c_eval_line m sw so : m = Simple → eval_kr m (c_Fline m) [sw; so] [0; 0] = Some [(sw - / 4) * (4 / 3); so * (4 / 3)].
Proof.
  intros ->. unfold eval_kr, two, used, pos. unfold c_Fline, ex_sw. ev2. do 2 f_equal; [field|f_equal; field].
Qed.
Lemma c_eval_other m sw so : m ≠ Simple → eval_kr m (c_Fline m) [sw; so] [0; 0] = Some [(sw - / 4) * (4 / 3); (1 - sw) * (4 / 3)].
Proof.
  intros Hm. unfold eval_kr, two, used, pos. destruct m; [done| |]; unfold c_Fline, ex_sw; ev2; do 2 f_equal; [field|f_equal; field|field|f_equal; field].
Qed.
(** [c_deck] has these keywords. *)
Definition c_f2 (k : kw) : option R := match k with KRWR => Some (/ 2) | KRO => Some 1 | _ => None end.
Definition c_f3 (k : kw) : option R := match k with KRWR => Some (/ 2) | KRW => Some (/ 2) | _ => None end.
Definition c_f4 (k : kw) : option R := match k with SOWCR => Some (/ 2) | KRWR => Some (/ 4) | _ => None end.
Definition c_f5 (k : kw) : option R := match k with SOWCR => Some (/ 2) | _ => None end.

(** In the mode with two points, if oil has no critical saturation in the tables and
    KRWR and KRO are given, but not KRW, the code reads from the array of KRW, which
    is empty. *)
Theorem C64_no_krw_refuted : ∃ D P, d_field D KRW = None ∧ sp_init mk_nonuniform Simple (λ _, c_junk) c_pu D c_grid = Some P ∧
  relperm_eps Simple P [0; 0] [/ 2; / 2] 0 [0; 0] false = None.
Proof.
  exists (c_deck false c_line c_f2), (c_P false (c_Fline Simple) c_f2). split; [done|]. split; [by apply c_init; [|apply c_line_init|..]|].
  eapply (c_unfold _ _ _ _ _ _ _ _ _ _ _ _ _ None 0); [done|reflexivity|reflexivity|by apply c_eval_line| |done].
  cbn -[Rle_dec Rgt_dec]. rewrite (rdiv_Some _ (1 - / 4)) by lra. cbn -[Rle_dec Rgt_dec]. destruct (Rle_dec (/ 2) (/ 4)); [lra|]. destruct (Rgt_dec _ _) as [|Hn]; [done|]. exfalso. apply Hn. lra.
Qed.
(** There too, if KRW and KRWR are given, but not KRO, KRW is disregarded. *)
Theorem C64_krw_refuted : ∃ D P v, d_field D KRW = Some [/ 2] ∧ sp_init mk_nonuniform Simple (λ _, c_junk) c_pu D c_grid = Some P ∧
  relperm_eps Simple P [0; 0] [1; 0] 0 [0; 0] false = Some [1; v].
Proof.
  exists (c_deck false c_line c_f3), (c_P false (c_Fline Simple) c_f3), 0. split; [done|]. split; [by apply c_init; [|apply c_line_init|..]|].
  eapply (c_unfold _ _ _ _ _ _ _ _ _ _ _ _ _ (Some 1) 0); [done|reflexivity|reflexivity|by apply c_eval_line| |].
  - cbn -[Rle_dec Rgt_dec]. rewrite (rdiv_Some _ (1 - / 4)) by lra. cbn -[Rle_dec Rgt_dec]. destruct (Rle_dec 1 (/ 4)); [lra|]. destruct (Rgt_dec _ _) as [|Hn]; [f_equal; lra|]. exfalso. apply Hn. lra.
  - intros _ _. cbn. f_equal. lra.
Qed.
(** In the mode with three points, if of the saturations only SOWCR is given, the
    relative permeability of water at 1 - SOWCR is not KRWR. *)
Theorem C64_krwr_refuted : ∃ D P v, d_field D SOWCR = Some [/ 2] ∧ d_field D KRWR = Some [/ 4] ∧ sp_init mk_nonuniform Simple (λ _, c_junk) c_pu D c_grid = Some P ∧
  relperm_eps Simple P [0; 0] [1 - / 2; / 2] 0 [0; 0] false = Some [/ 8; v].
Proof.
  assert (∃ o, eval_kr Simple c_Fbent [1 - / 2; 1 - 3 / 4] [0; 0] = Some [/ 4; o]) as [o Ho].
  { replace (1 - / 2) with (/ 2) by lra. unfold eval_kr, two, used, pos. ev2.
    match goal with |- ∃ o, (?t ≫= _) = _ => assert (is_Some t) as [o ->] end; [|by exists o].
    destruct (C63_nonuniform (NTable c_sw3 [1; 0; 0] [] []) c_sw3_ok) as [H _]; [cbn; lia|done|]. apply H. }
  exists (c_deck true c_bent c_f4), (c_P true c_Fbent c_f4), o. split; [done|]. split; [done|]. split; [by apply c_init; [|apply c_bent_init|..]|].
  eapply (c_unfold _ _ _ _ _ _ _ _ _ _ _ _ _ (Some (/ 8)) o); [done|reflexivity| |exact Ho| |done].
  - cbn -[Rle_dec Rge_dec]. destruct (Rle_dec (/ 2) (1 - / 4)); [|lra]. destruct (Rle_dec (/ 2) (/ 2)); [done|lra].
  - cbn -[Rle_dec Rgt_dec]. destruct (Rle_dec (1 - / 2) (/ 4)); [lra|]. destruct (Rgt_dec (1 - / 2) _) as [Hn|Hn]; [lra|]. destruct (Rle_dec (1 - / 2) (1 - / 2)); [|lra]. rewrite rdiv_Some by lra. cbn. f_equal. lra.
Qed.
(** With the models Stone2 and Gwseg the end points of oil have no effect: at the
    critical saturation SOWCR oil moves. *)
Theorem C64_stone_refuted m : m ≠ Simple → ∃ D P v w, d_field D SOWCR = Some [/ 2] ∧ sp_init mk_nonuniform m (λ _, c_junk) c_pu D c_grid = Some P ∧
  relperm_eps m P [0; 0] [/ 2; / 2] 0 [0; 0] false = Some [v; w] ∧ 0 < w.
Proof.
  intros Hm. exists (c_deck false c_line c_f5), (c_P false (c_Fline m) c_f5), (/ 3), (2 / 3). split; [done|]. split; [apply c_init; [done|apply c_line_init|by destruct m..]|]. split; [|lra].
  eapply (c_unfold _ _ _ _ _ _ 1 (1 - / 4) 0 (/ 2) (sf_sowcr (c_Fline m)) _ _ (Some (/ 3)) (2 / 3)); [by destruct m|reflexivity| |by apply c_eval_other| |].
  - cbn -[Rle_dec Rge_dec]. destruct (Rle_dec (/ 2) (/ 2)); [done|lra].
  - cbn. f_equal. lra.
  - intros _ _. cbn. f_equal. lra.
Qed.
(** A SATNUM of 0 is accepted; then the saturation function of that cell is the one
    before the first. *)
Theorem C64_satnum_refuted : ∃ D P, d_satnum D = Some [0%Z] ∧ sp_init mk_nonuniform Simple (λ _, c_junk) c_pu D c_grid = Some P ∧ func_for_cell P 0 = None.
Proof.
  exists (Deck (Some [0%Z]) c_line [] None false (λ _, None) None None), (SatProps c_pu [c_Fline Simple] [(-1)%Z] (Eps [] [] [] [] [] [] [] []) false false).
  split; [done|]. split; [|done]. unfold sp_init.
  change (pu_used c_pu !! phase_index Liquid) with (Some 1%nat). change (pu_used c_pu !! phase_index Aqua) with (Some 1%nat). change (pu_used c_pu !! phase_index Vapour) with (Some 0%nat). cbn [mbind option_bind].
  rewrite (decide_False (P := 1%nat = 0%nat)) by lia. cbn [d_satnum head mbind option_bind d_swof d_sgof gr_nc c_grid seq mapM]. change (deck_pos _ 0) with (Some 0%nat). cbn [mbind option_bind lookup list_lookup mret option_ret foldl].
  rewrite (decide_False (P := 1%nat ≠ 0%nat ∧ _)) by (intros [_ ?]; cbn in *; lia). rewrite (decide_False (P := 0%nat ≠ 0%nat ∧ _)) by (intros [? _]; lia). rewrite (decide_False (P := 1%nat ≠ 0%nat ∧ _)) by (intros (_ & ? & _); lia).
  rewrite (decide_True (P := 1%nat ≠ 0%nat)) by lia. cbn [length c_line ex_swof seq mapM]. fold ex_swof. fold c_line. rewrite c_line_init. done.
Qed.

(** ** Cases of the other theorems: two cells, two tables *)
Definition c_deck2 : deck := Deck (Some [2; 1]%Z) (c_line ++ c_bent) [] None false (λ _, None) None None.
Definition c_P2 : satprops := SatProps c_pu [c_Fline Simple; c_Fbent] [1; 0]%Z (Eps [] [] [] [] [] [] [] []) false false.
Lemma c_phases : phases (c_Fline Simple) true false ∧ phases c_Fbent true false.
Proof. split; exists [0; 0; 0]%nat, [0; 0; 0]%nat, (λ p, match p with GAS => false | _ => true end); repeat split. Qed.
Example c_two_init : sp_init mk_nonuniform Simple (λ _, c_junk) c_pu c_deck2 (Grid 2 3 None [0; 0; 0; 0; 0; 1]) = Some c_P2.
Proof.
  unfold sp_init. change (pu_used c_pu !! phase_index Liquid) with (Some 1%nat). change (pu_used c_pu !! phase_index Aqua) with (Some 1%nat). change (pu_used c_pu !! phase_index Vapour) with (Some 0%nat). cbn [mbind option_bind].
  rewrite (decide_False (P := 1%nat = 0%nat)) by lia. cbn -[sat_init c_line c_bent Z.max]. change (Z.max (Z.max 2 2) 1) with 2%Z. change (length (c_line ++ c_bent)) with 2%nat.
  rewrite (decide_False (P := 1%nat ≠ 0%nat ∧ _)) by (intros [_ ?]; cbn in *; lia). rewrite (decide_False (P := 0%nat ≠ 0%nat ∧ _)) by (intros [? _]; lia). rewrite (decide_False (P := 1%nat ≠ 0%nat ∧ _)) by (intros (_ & ? & _); lia).
  rewrite (decide_True (P := 1%nat ≠ 0%nat)) by lia. cbn [seq mapM].
  change (sat_init mk_nonuniform Simple c_junk (c_line ++ c_bent) [] 0 c_pu) with (sat_init mk_nonuniform Simple c_junk c_line [] 0 c_pu). rewrite c_line_init. cbn [mbind option_bind].
  change (sat_init mk_nonuniform Simple c_junk (c_line ++ c_bent) [] 1 c_pu) with (sat_init mk_nonuniform Simple c_junk c_bent [] 0 c_pu). rewrite c_bent_init. done.
Qed.
(** Point 0 is in cell 1, with the first table; point 1 in cell 0, with the second. *)
Example C64_case_relperm ss : ∃ v0 v1 kr', relperm Simple c_P2 ss 2 [/ 2; / 2; / 2; / 2] [1; 0]%nat [7; 7; 7; 7; 7] None = Some (kr', None) ∧ kr' = [/ 3; v0; / 4; v1; 7].
Proof.
  assert (HD : ∀ y x, length y = 3%nat → is_Some (tv (ex_t c_sw3 y) x)). { intros y x Hy. destruct (C63_nonuniform (NTable c_sw3 y [] []) c_sw3_ok) as [H _]; [cbn; lia|done|]. apply H. }
  destruct (HD [1; 0; 0] (1 - / 2) eq_refl) as [o Ho].
  destruct (C64_relperm Simple c_P2 ss 2 [/ 2; / 2; / 2; / 2] [1; 0]%nat [7; 7; 7; 7; 7] true false (λ i, match i with 0%nat => [/ 3; 2 / 3] | _ => [/ 4; o] end)) as (kr' & E & L & Ht & Hb); [done|cbn; lia|cbn; lia| |].
  - intros [|[|i]] Hi; [| |lia].
    + exists 1%nat, (c_Fline Simple). split; [repeat split; apply c_phases|]. change (block _ _ _) with [/ 2; / 2]. change (replicate _ _) with [0; 0]. rewrite c_eval_line by done. do 2 f_equal; [lra|f_equal; lra].
    + exists 0%nat, c_Fbent. split; [repeat split; apply c_phases|]. unfold eval_kr, two, used, pos. ev2. rewrite Ho. done.
  - exists (2 / 3), o, kr'. split; [done|]. pose proof (Hb 0%nat ltac:(lia)) as H0. pose proof (Hb 1%nat ltac:(lia)) as H1. unfold block in H0, H1. cbn in L, Ht, H0, H1.
    destruct kr' as [|a [|b [|c [|d [|e [|? ?]]]]]]; cbn in L; try lia. cbn in *. simplify_eq. done.
Qed.
Example C64_case_range : ∃ a b, sat_range c_P2 2 [1; 0]%nat [7; 7; 7; 7] [7; 7; 7; 7] = Some (a, b) ∧ a !! 0%nat = Some (/ 4) ∧ b !! 2%nat = Some 1.
Proof.
  destruct (C64_sat_range c_P2 2 [1; 0]%nat [7; 7; 7; 7] [7; 7; 7; 7]) as (a & b & E & _ & _ & _ & _ & H); [cbn; lia|cbn; lia| |].
  - intros [|[|i]] Hi; [| |lia]; [exists 1%nat, (c_Fline Simple)|exists 0%nat, c_Fbent]; cbn; repeat split; lia.
  - exists a, b. split; [done|]. split; [apply (H 0%nat 1%nat (c_Fline Simple) 0%nat); done || cbn; lia|apply (H 1%nat 0%nat c_Fbent 0%nat); done || cbn; lia].
Qed.
(** Those of C64_init and C64_keyword, with a table of ENPTVD: SWCR is 1/4 at depth 0
    and 3/4 at depth 2. *)
Definition c_vd : deck := Deck None c_line [] (Some (true, true)) false (λ _, None) (Some ([false; true; false; false], [[[0; 2]]; [[-1]]; [[/ 4; 3 / 4]]; [[-1]]; [[-1]]])) None.
Example C64_case_keyword : init_eps (c_P false (c_Fline Simple) (λ _, None)) c_vd (Grid 2 3 None [0; 0; 0; 0; 0; 1]) SWCR [] = Some [/ 4; / 2].
Proof.
  assert (E : ∀ z, linear_interpolation 2 [0; 2] [/ 4; 3 / 4] z = Some (/ 4 + z / 4)).
  { intros z. unfold linear_interpolation. destruct (table_index_spec 1 [0; 2] z 2 ltac:(apply ordered2; lra) ltac:(cbn; lia) (le_n _)) as (i & E & Hi & _). cbn in Hi. assert (i = 0%nat) as -> by lia.
    cbn -[table_index]. rewrite E. cbn. rewrite rdiv_Some by lra. cbn. f_equal. lra. }
  unfold init_eps. cbn -[linear_interpolation Rge_dec Rle_dec Req_EM_T]. try (case_decide; [lia|]). change (Z.to_nat 0) with 0%nat. cbn -[linear_interpolation Rge_dec Rle_dec Req_EM_T]. destruct (Req_EM_T (/ 4) (-1)); [lra|]. destruct (Rge_dec 0 0); [|lra]. destruct (Rle_dec 0 2); [|lra]. rewrite E. cbn -[linear_interpolation Rge_dec Rle_dec Req_EM_T]. try (rewrite upd_Some by (cbn; lia)). cbn -[linear_interpolation Rge_dec Rle_dec Req_EM_T]. try (case_decide; [lia|]). change (Z.to_nat 0) with 0%nat. cbn -[linear_interpolation Rge_dec Rle_dec Req_EM_T].
  destruct (Req_EM_T (/ 4) (-1)); [lra|]. destruct (Rge_dec 1 0); [|lra]. destruct (Rle_dec 1 2); [|lra]. rewrite E. cbn. try (case_decide; [lia|]). rewrite upd_Some by (cbn; lia). cbn. replace (/ 4 + 0 / 4) with (/ 4) by lra. replace (/ 4 + 1 / 4) with (/ 2) by lra. done.
Qed.

Print Assumptions C64_no_krw_refuted.
Print Assumptions C64_krw_refuted.
Print Assumptions C64_krwr_refuted.
Print Assumptions C64_stone_refuted.
Print Assumptions C64_satnum_refuted.
