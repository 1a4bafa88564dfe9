(** C62: concrete wells, and claims that fail. *)
From Coq Require Import Reals Lra.
From Verif Require Import Base LoopModel TofSpec TableModel WellsModel WellsSpec MiscModel MiscSpec WrepModel WrepSpec WrepProof WrepProps.
Unset Default Proof Using.
Local Open Scope R_scope.

Definition rate_ctrl (np : nat) (target : R) : ctrl R := Ctrl 1 [RESERVOIR_RATE] [target] (replicate np 1) 0 1.
(** Two wells with one perforation each, in cells [a] and [b]. *)
Definition two (ta tb : wtype) (a b : Z) (np : nat) (frac : list R) (qa qb : R) : wells R unit :=
  Wells 2 np [ta; tb] [0; 1] frac [0; 1; 2]%nat [a; b] [1; 1] [Some (rate_ctrl np qa); Some (rate_ctrl np qb)] [None; None] 2 2.
Definition one_ctrl (np : nat) (q : R) : actrl R := ACtrl RESERVOIR_RATE q (replicate np 1).
Lemma two_view2 ta tb a b f0 f1 f2 f3 qa qb : view (two ta tb a b 2 [f0; f1; f2; f3] qa qb) =
  Some [AWell ta 0 [f0; f1] [(a, 1)] None [one_ctrl 2 qa] 0; AWell tb 1 [f2; f3] [(b, 1)] None [one_ctrl 2 qb] 0].
Proof. reflexivity. Qed.
Lemma two_simple ta q (d : R) c f0 f1 nc : (c < nc)%nat → simple_well nc (@AWell R unit ta d [f0; f1] [(Z.of_nat c, 1)] None [one_ctrl 2 q] 0) c (match ta with INJECTOR => q * f0 | PRODUCER => q end).
Proof. intros H. split; [done|]. split; [by exists 1|]. exists 0%nat, q, f0. by repeat split. Qed.

(** An injector of water in cell 0 and a producer in cell 2. *)
Example C62_case_source : ∃ s, wells_to_src (two INJECTOR PRODUCER 0 2 2 [1; 0; 1/2; 1/2] 3 (-4)) 3 [] = Some s ∧ s !! 0%nat = Some (3 * 1) ∧ s !! 1%nat = Some 0 ∧ s !! 2%nat = Some (-4).
Proof.
  destruct (C62_source _ _ (two_view2 INJECTOR PRODUCER 0 2 1 0 (1/2) (1/2) 3 (-4)) 3 [] (λ w, match w with 0%nat => 0%nat | _ => 2%nat end) (λ w, match w with 0%nat => 3 * 1 | _ => -4 end)) as (s & E & _ & H1 & H2); [done| |].
  - intros [|[|w]] aw Hw; [| |done]; injection Hw as <-; [exact (two_simple INJECTOR 3 0 0 1 0 3 ltac:(lia))|exact (two_simple PRODUCER (-4) 1 2 (1/2) (1/2) 3 ltac:(lia))].
  - exists s. split; [exact E|]. split; [apply (H1 0%nat); [cbn; lia|intros w' Hw'; destruct w'; [cbn in *; lia|done]]|]. split.
    + rewrite H2; [done|]. intros [|w] _; done.
    + apply (H1 1%nat); [cbn; lia|]. cbn. intros w' Hw'. lia.
Qed.
(** Rates per well of perforations with rates 5 and 7; half of what the second
    one produces is water. *)
Example C62_case_rates : ∃ l m, compute_flow_rate_per_well (two INJECTOR PRODUCER 0 2 2 [1; 0; 1/2; 1/2] 3 (-4)) [5; -7] [] = Some l ∧ l = [5 + 0; -7 + 0] ∧
  compute_phase_flow_rates_per_well (two INJECTOR PRODUCER 0 2 2 [1; 0; 1/2; 1/2] 3 (-4)) [5; -7] [1; 0; 0; 1; 1/2; 1/2] [] = Some m ∧ rsum (λ ph, val m (1 * 2 + ph)) (seq 0 2) = -7 + 0.
Proof.
  assert (HF : rates_of [AWell INJECTOR 0 [1; 0] [(0%Z, 1)] (@None unit) [one_ctrl 2 3] 0; AWell PRODUCER 1 [1/2; 1/2] [(2%Z, 1)] None [one_ctrl 2 (-4)] 0] [[5]; [-7]]) by (repeat constructor).
  pose proof (C62_flow _ _ (two_view2 INJECTOR PRODUCER 0 2 1 0 (1/2) (1/2) 3 (-4)) eq_refl [[5]; [-7]] [] [] HF) as E.
  destruct (C62_phase_total _ _ (two_view2 INJECTOR PRODUCER 0 2 1 0 (1/2) (1/2) 3 (-4)) eq_refl 3 [[5]; [-7]] [1; 0; 0; 1; 1/2; 1/2] [] HF) as (m & Em & Hm); [| done | |].
  - intros aw p Haw Hp. repeat (apply elem_of_cons in Haw as [->|Haw]; [cbn in Hp; apply elem_of_list_singleton in Hp as ->; cbn; lia|]). by apply elem_of_nil in Haw.
  - intros c Hc. cbn [w_np two]. destruct c as [|[|[|c]]]; [| | |lia]; cbn; lra.
  - eexists _, m. split; [exact E|]. split; [done|]. split; [exact Em|]. exact (Hm 1%nat [-7] eq_refl).
Qed.
(** Weight of the column between depth 1 and depth 11: half water, half oil. *)
Example C62_case_wdp : ∃ l, compute_wdp (two INJECTOR PRODUCER 0 1 2 [1; 0; 1/2; 1/2] 3 (-4)) 2 [1; 0; 1/2; 1/2] [1000; 800] [0; 0; 5; 0; 0; 11] 10 true [] = Some ([] ++ l) ∧ l !! 1%nat = Some 90000.
Proof.
  destruct (C62_wdp _ _ (two_view2 INJECTOR PRODUCER 0 1 1 0 (1/2) (1/2) 3 (-4)) eq_refl 2 2 [1; 0; 1/2; 1/2] [1000; 800] [0; 0; 5; 0; 0; 11] 10 true []) as (l & E & _ & H); [|done|done|cbn; lia|cbn; lia|].
  - intros aw p Haw Hp. repeat (apply elem_of_cons in Haw as [->|Haw]; [cbn in Hp; apply elem_of_list_singleton in Hp as ->; cbn; lia|]). by apply elem_of_nil in Haw.
  - exists l. split; [exact E|]. destruct (H 1%nat _ 0%nat _ eq_refl eq_refl) as [H1 _]. change (before _ 1 + 0)%nat with 1%nat in H1. rewrite H1.
    + f_equal. unfold mean_by, sum_list, sats, val, pcell. cbn [fst]. change (Z.to_nat 1) with 1%nat. cbn. field.
    + unfold sum_list, sats, pcell. cbn [fst]. change (Z.to_nat 1) with 1%nat. cbn. lra.
Qed.

(** The source does not add up to the rates if two wells are in the same cell:
    the second rate replaces the first. *)
Theorem C62_shared_cell_refuted : ∃ (W : wells R unit) ws rate s, view W = Some ws ∧ w_np W = 2%nat ∧ (∀ w aw, ws !! w = Some aw → simple_well 1 aw 0 (rate w)) ∧
  wells_to_src W 1 [] = Some s ∧ total s ≠ rsum rate (seq 0 (length ws)).
Proof.
  eexists (two PRODUCER PRODUCER 0 0 2 [1; 0; 1; 0] (-1) (-2)), _, (λ w, match w with 0%nat => -1 | _ => -2 end), [-2].
  assert (HS : ∀ w aw, [AWell PRODUCER 0 [1; 0] [(0%Z, 1)] (@None unit) [one_ctrl 2 (-1)] 0; AWell PRODUCER 1 [1; 0] [(0%Z, 1)] None [one_ctrl 2 (-2)] 0] !! w = Some aw → simple_well 1 aw 0 (match w with 0%nat => -1 | _ => -2 end)).
  { intros [|[|w]] aw Hw; [| |done]; injection Hw as <-; [exact (two_simple PRODUCER (-1) 0 0 1 0 1 ltac:(lia))|exact (two_simple PRODUCER (-2) 1 0 1 0 1 ltac:(lia))]. }
  split; [apply two_view2|]. split; [done|]. split; [exact HS|]. split.
  - destruct (C62_source _ _ (two_view2 PRODUCER PRODUCER 0 0 1 0 1 0 (-1) (-2)) 1 [] (λ _, 0%nat) (λ w, match w with 0%nat => -1 | _ => -2 end) eq_refl HS) as (s & E & HL & H1 & _). rewrite E. f_equal.
    pose proof (H1 1%nat ltac:(cbn; lia) ltac:(cbn; intros; lia)) as H. destruct s as [|x [|]]; try done. cbn in H. congruence.
  - unfold total, val. cbn. lra.
Qed.
Print Assumptions C62_shared_cell_refuted.
(** A vector that is not empty keeps its sources in cells without wells. *)
Theorem C62_stale_source_refuted : ∃ (W : wells R unit) ws cell rate s, view W = Some ws ∧ w_np W = 2%nat ∧ (∀ w aw, ws !! w = Some aw → simple_well 3 aw (cell w) (rate w)) ∧
  wells_to_src W 3 [5; 5; 5] = Some s ∧ (∀ w, (w < length ws)%nat → cell w ≠ 1%nat) ∧ s !! 1%nat ≠ Some 0.
Proof.
  pose (cell := λ w : nat, match w with 0%nat => 0%nat | _ => 2%nat end). pose (rate := λ w : nat, match w with 0%nat => 3 * 1 | _ => -4 end).
  assert (HS : ∀ w aw, [AWell INJECTOR 0 [1; 0] [(0%Z, 1)] (@None unit) [one_ctrl 2 3] 0; AWell PRODUCER 1 [1/2; 1/2] [(2%Z, 1)] None [one_ctrl 2 (-4)] 0] !! w = Some aw → simple_well 3 aw (cell w) (rate w)).
  { intros [|[|w]] aw Hw; [| |done]; injection Hw as <-; [exact (two_simple INJECTOR 3 0 0 1 0 3 ltac:(lia))|exact (two_simple PRODUCER (-4) 1 2 (1/2) (1/2) 3 ltac:(lia))]. }
  destruct (C62_source _ _ (two_view2 INJECTOR PRODUCER 0 2 1 0 (1/2) (1/2) 3 (-4)) 3 [5; 5; 5] cell rate eq_refl HS) as (s & E & _ & _ & H2).
  assert (Hc : ∀ w, (w < 2)%nat → cell w ≠ 1%nat) by (intros [|w] _; done).
  eexists _, _, cell, rate, s. split; [apply two_view2|]. split; [done|]. split; [exact HS|]. split; [exact E|]. split; [exact Hc|].
  rewrite (H2 1%nat Hc). cbn. intros [= H]. lra.
Qed.
Print Assumptions C62_stale_source_refuted.

(** The report takes the composition of the first well for all: a well that
    injects only oil is reported with water cut 1. *)
Definition lin (s : list R) (c : nat) : list R := s.
Theorem C62_report_composition_refuted : ∃ (W : wells R unit) ws qs bhp row, view W = Some ws ∧ w_connpos W !! 0%nat = Some 0%nat ∧ in_cells 2 ws ∧ rates_of ws qs ∧ length bhp = length ws ∧
  report_push_incomp W lin 2 [1; 1] [1; 0; 1; 0] 0 bhp (concat qs) [] = Some [row] ∧
  ∀ F, ¬ row_of ws qs bhp 0 F row.
Proof.
  set (W := two INJECTOR INJECTOR 0 1 2 [1; 0; 0; 1] 1 1).
  assert (Hp : ∀ s : R * R, report_perf W [1; 1] (λ cell, sat ← slice [1; 0; 1; 0] (2 * cell) 2; first_share 2 (lin sat cell) [1; 1]) 0 s = Some (s.1 + 1 * 86400, s.2 + 1 * 86400 * 1) ∧
    report_perf W [1; 1] (λ cell, sat ← slice [1; 0; 1; 0] (2 * cell) 2; first_share 2 (lin sat cell) [1; 1]) 1 s = Some (s.1 + 1 * 86400, s.2 + 1 * 86400 * 1)).
  { intros [T V]. unfold report_perf. cbn [lookup list_lookup mbind option_bind fst snd]. assert (1 / day ≠ 0) by (unfold day; lra). rewrite rdiv_Some by done. cbn [mbind option_bind].
    assert (1 / (1 / day) = 1 * 86400) as -> by (unfold day; field; lra). destruct (Rlt_dec 0 (1 * 86400)); [|lra]. done. }
  destruct (report_push_incomp W lin 2 [1; 1] [1; 0; 1; 0] 0 [0; 0] [1; 1] []) as [d|] eqn:E.
  2:{ exfalso. revert E. unfold report_push_incomp, report_push. rewrite decide_False by lia. rewrite decide_True by done. cbn [length for_loop]. cbn [w_connpos W two lookup list_lookup mbind option_bind Nat.add Nat.sub for_loop].
      destruct (Hp (0, 0)) as [-> ->]. cbn [mbind option_bind fst snd]. destruct (Req_EM_T (0 + 1 * 86400) 0); [lra|]. rewrite rdiv_Some by done. done. }
  assert (∃ row, d = [row] ∧ row !! 6%nat = Some ((0 + 1 * 86400 * 1) / (0 + 1 * 86400))) as (row & -> & Hrow).
  { revert E. unfold report_push_incomp, report_push. rewrite decide_False by lia. rewrite decide_True by done. cbn [length for_loop]. cbn [w_connpos W two lookup list_lookup mbind option_bind Nat.add Nat.sub for_loop].
    destruct (Hp (0, 0)) as [-> ->]. cbn [mbind option_bind fst snd]. destruct (Req_EM_T (0 + 1 * 86400) 0); [lra|]. rewrite rdiv_Some by done. cbn [mbind option_bind]. intros [= <-]. eexists. split; [done|]. done. }
  eexists W, _, [[1]; [1]], [0; 0], row. split; [apply two_view2|]. split; [done|]. split.
  { intros aw p Haw Hpp. repeat (apply elem_of_cons in Haw as [->|Haw]; [cbn in Hpp; apply elem_of_list_singleton in Hpp as ->; cbn; lia|]). by apply elem_of_nil in Haw. }
  split; [by repeat constructor|]. split; [done|]. split; [exact E|]. intros F (_ & _ & H). destruct (H 1%nat _ _ _ eq_refl eq_refl eq_refl) as (_ & _ & H3). change (3 * 1 + 3)%nat with 6%nat in H3. rewrite Hrow in H3. injection H3 as H3.
  revert H3. unfold cut_of, water_of, over, sum_list, val. cbn. destruct (Req_EM_T (1 + 0) 0); [lra|]. destruct (Rlt_dec 0 1); [|lra]. intros H3. field_simplify in H3. lra.
Qed.
Print Assumptions C62_report_composition_refuted.
(** With three phases the saturations of cell 1 are read at the wrong place: a
    well that produces only water is reported with water cut 1/2. *)
Theorem C62_report_three_phases_refuted : ∃ (W : wells R unit) ws qs bhp row, view W = Some ws ∧ w_connpos W !! 0%nat = Some 0%nat ∧ in_cells 2 ws ∧ rates_of ws qs ∧ length bhp = length ws ∧ same_injection ws qs ∧
  report_push_incomp W lin 3 [1; 1; 1] [0; 0; 1; 1; 0; 0] 0 bhp (concat qs) [] = Some ([] ++ [row]) ∧
  ¬ row_of ws qs bhp 0 (λ c, share lin [1; 1; 1] 3 [0; 0; 1; 1; 0; 0] c c 0) row.
Proof.
  set (W := two PRODUCER PRODUCER 1 1 3 [1; 0; 0; 1; 0; 0] (-1) (-1)).
  set (ws := [AWell PRODUCER 0 [1; 0; 0] [(1%Z, 1)] (@None unit) [one_ctrl 3 (-1)] 0; AWell PRODUCER 1 [1; 0; 0] [(1%Z, 1)] None [one_ctrl 3 (-1)] 0]).
  assert (HV : view W = Some ws) by reflexivity.
  assert (Hin : in_cells 2 ws). { intros aw p Haw Hpp. repeat (apply elem_of_cons in Haw as [->|Haw]; [cbn in Hpp; apply elem_of_list_singleton in Hpp as ->; cbn; lia|]). by apply elem_of_nil in Haw. }
  assert (HF : rates_of ws [[-1]; [-1]]) by (by repeat constructor).
  assert (HS : same_injection ws [[-1]; [-1]]).
  { intros w aw q x aw0 _ Hq Hx Hpos _. exfalso. destruct w as [|[|w]]; [| |done]; injection Hq as <-; apply elem_of_list_singleton in Hx as ->; lra. }
  set (F := λ c : nat, match c with 0%nat => 0 | _ => 1 / 2 end).
  destruct (report_ok W ws HV eq_refl 2 (λ cell, sat ← slice [0; 0; 1; 1; 0; 0] (2 * cell) 3; first_share 3 (lin sat cell) [1; 1; 1]) F [[-1]; [-1]] 0 [0; 0] []) as (row & E & HR); try done.
  - cbn. lia.
  - intros c Hc. assert (Hv : ∀ p, (p < 3)%nat → [1; 1; 1] !! p = Some 1 ∧ 1 ≠ 0) by (intros p Hp; destruct p as [|[|[|p]]]; [| | |lia]; (split; [done|lra])).
    destruct c as [|[|c]]; [| |lia]; cbn [slice Nat.mul Nat.add lookup list_lookup mbind option_bind]; cbn [slice lookup list_lookup mbind option_bind Nat.add lin];
      rewrite (first_share_ok 3 _ [1; 1; 1] (λ _, 1)); try done; try (cbn; lia); unfold val, F, lin; cbn; try lra; f_equal; field.
  - eexists W, ws, [[-1]; [-1]], [0; 0], row. do 6 (split; [done|]). split; [exact E|]. intros HR'. destruct HR as (_ & _ & H1), HR' as (_ & _ & H2). destruct (H1 0%nat _ _ _ eq_refl eq_refl eq_refl) as (_ & _ & G1). destruct (H2 0%nat _ _ _ eq_refl eq_refl eq_refl) as (_ & _ & G2).
    rewrite G1 in G2. injection G2 as G2. revert G2. unfold cut_of, water_of, over, sum_list, share, mob, totmob, sats, val, F, lin, pcell. cbn [aw_perfs zip zip_with rsum fst snd]. change (Z.to_nat 1) with 1%nat. cbn. destruct (Req_EM_T (-1 + 0) 0); [lra|]. destruct (Rlt_dec 0 (-1)); [lra|].
    unfold share, totmob, mob, sats, val. cbn. intros G. field_simplify in G. lra.
Qed.
Print Assumptions C62_report_three_phases_refuted.
