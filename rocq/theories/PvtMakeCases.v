(** Cases for C66, and what does not hold. *)
From Coq Require Import Reals Lra Psatz.
From Verif Require Import Base LoopModel LoopProof TableModel TofSpec MiscSpec UTableProof NTableProof NTableProps PhaseModel PvtModel PvtMakeModel PvtSpec PvtMakeSpec PvtProof PvtProps PvtGas PvtMakeProof PvtMakeProps.
Local Open Scope R_scope.
Unset Default Proof Using.

(** Five records; the fourth has one row. *)
Definition ex_pvto : list (list R) :=
  [[0; 10; 1; 1; 20; 1; 1]; [1; 20; 1; 1; 30; 1; 1]; [2; 30; 1; 1; 40; 1; 2]; [3; 40; 1; 1]; [4; 50; 1; 1; 60; 1; 1]].
Lemma ex_pvto_good : good_pvto ex_pvto.
Proof.
  split.
  - cbn. lia.
  - intros r Hr. unfold ex_pvto in Hr. repeat (apply elem_of_cons in Hr as [->|Hr]); [| | | | |by apply elem_of_nil in Hr].
    all: try (exists 2%nat; split; [lia|]; split; [done|]; split; [intros [|[|j]] Hj; [unfold val; cbn; lra|unfold val; cbn; lra|lia]|intros [|j] [|[|k]] Hjk; try lia; unfold val; cbn; lra]).
    exists 1%nat; split; [lia|]; split; [done|]; split; [intros [|j] Hj; [unfold val; cbn; lra|lia]|intros; lia].
  - intros i j a b Hij Ha Hb. unfold ex_pvto in *.
    do 5 (destruct i as [|i]; [cbn in Ha; injection Ha as <-; do 5 (destruct j as [|j]; [try lia; cbn in Hb; injection Hb as <-; unfold val; cbn; lra|]); done|]). done.
  - intros r Hr. cbn in Hr. injection Hr as <-. cbn. lia.
Qed.
Example ex_pvto_made : ∃ L, oil_make 16 [ex_pvto] = Some L ∧ live_tables L (firsts ex_pvto 1) (firsts_inv ex_pvto 2) (firsts ex_pvto 3) (firsts ex_pvto 0).
Proof.
  destruct (C66_oil ex_pvto 16 ex_pvto_good) as (L & E & H & _); [|by exists L].
  intros r Hr. unfold ex_pvto in Hr. repeat (apply elem_of_cons in Hr as [->|Hr]; [cbn; lia|]). by apply elem_of_nil in Hr.
Qed.
Lemma fill_big fuel rs i und ip inx s : und_size und i = Some s → (1 < s)%nat → fill_record fuel rs i (und, ip, inx) = Some (und, Some i, inx).
Proof. intros E H. unfold fill_record. rewrite E. cbn [mbind option_bind]. by rewrite decide_True. Qed.
Definition ex_und : list (list (list R)) := map (λ r, table_of true r ((length r - 1) / 3)) ex_pvto.
(** One turn of the loop: neither of the two tables has more pressures. *)
Lemma ex_extend n w : extend (S n) (Some (table_of true [1; 20; 1; 1; 30; 1; 1] 2)) (table_of true [4; 50; 1; 1; 60; 1; 1] 2) (Some w) (table_of true [3; 40; 1; 1] 1) true true (0, 0) (0, 0) = Some [[40; 60]; [1 / 1; 1]; [1; 1]].
Proof.
  assert (P1 : pick (table_of true [1; 20; 1; 1; 30; 1; 1] 2) 40 = Some (30, false, (0, 0))).
  { change (table_of true [1; 20; 1; 1; 30; 1; 1] 2) with [[20; 30]; [1 / 1; 1 / 1]; [1; 1]]. unfold pick. cbn [lookup list_lookup mbind option_bind].
    assert (EU : upper_bound [20; 30] (40 + 1) = 2%nat). { cbn [upper_bound]. destruct (Rlt_dec (40 + 1) 20); [lra|]. destruct (Rlt_dec (40 + 1) 30); [lra|]. done. }
    rewrite EU. cbn [length]. rewrite !(decide_True (P := (2 = 2)%nat)) by done. cbn [Nat.sub lookup list_lookup mbind option_bind]. rewrite decide_False by done. rewrite (rdiv_Some (1 / 1 - 1 / 1) (30 - 20)), (rdiv_Some (1 - 1) (30 - 20)) by lra. cbn [mbind option_bind]. rewrite bool_decide_true by done. cbn [negb].
    replace ((1 / 1 - 1 / 1) / (30 - 20)) with 0 by field. by replace ((1 - 1) / (30 - 20)) with 0 by field. }
  assert (P2 : pick (table_of true [4; 50; 1; 1; 60; 1; 1] 2) 40 = Some (60, false, (0, 0))).
  { change (table_of true [4; 50; 1; 1; 60; 1; 1] 2) with [[50; 60]; [1 / 1; 1 / 1]; [1; 1]]. unfold pick. cbn [lookup list_lookup mbind option_bind].
    assert (EU : upper_bound [50; 60] (40 + 1) = 0%nat). { cbn [upper_bound]. destruct (Rlt_dec (40 + 1) 50); [done|lra]. }
    rewrite EU. cbn [length]. rewrite !(decide_False (P := (0 = 2)%nat)) by done. rewrite !(decide_True (P := (0 = 0)%nat)) by done. cbn [Nat.sub lookup list_lookup mbind option_bind]. rewrite decide_False by done. rewrite (rdiv_Some (1 / 1 - 1 / 1) (60 - 50)), (rdiv_Some (1 - 1) (60 - 50)) by lra. cbn [mbind option_bind]. rewrite bool_decide_true by done. cbn [negb].
    replace ((1 / 1 - 1 / 1) / (60 - 50)) with 0 by field. by replace ((1 - 1) / (60 - 50)) with 0 by field. }
  cbn [extend orb]. change (table_of true [3; 40; 1; 1] 1) with [[40]; [1 / 1]; [1]]. cbn [lookup list_lookup mbind option_bind last]. rewrite P1. cbn [mbind option_bind]. rewrite P2. cbn [mbind option_bind push app fst snd].
  replace (40 + (60 - 40)) with 60 by lra. replace (1 / 1 + (60 - 40) * (0 + w * (0 - 0))) with 1 by field. replace (1 + (60 - 40) * (0 + w * (0 - 0))) with 1 by field. by destruct n.
Qed.
(** The slopes do not always come from the nearest earlier record with undersaturated
    rows: for the fourth record here they are those of the second one. *)
Theorem C66_nearest_refuted : ∃ recs L r2 r3 r4 d0 d1 d2, good_pvto recs ∧ oil_make 40 [recs] = Some L ∧ recs !! 2%nat = Some r2 ∧ recs !! 3%nat = Some r3 ∧ recs !! 4%nat = Some r4 ∧ rows r2 2 ∧ rows r3 1 ∧ rows r4 2 ∧
  lv_und L !! 3%nat = Some [val r3 1 :: d0; 1 / val r3 2 :: d1; val r3 3 :: d2] ∧
  ¬ sloped (between (table_of true r2 2) (table_of true r4 2) ((val r3 0 - val r2 0) / (val r4 0 - val r2 0))) (val r3 1) (1 / val r3 2) (val r3 3) d0 d1 d2.
Proof.
  exists ex_pvto, (Live [firsts ex_pvto 1; firsts_inv ex_pvto 2; firsts ex_pvto 3; firsts ex_pvto 0] (<[3%nat := [[40; 60]; [1 / 1; 1]; [1; 1]]]> ex_und)), [2; 30; 1; 1; 40; 1; 2], [3; 40; 1; 1], [4; 50; 1; 1; 60; 1; 1], [60], [1], [1].
  split; [exact ex_pvto_good|]. split; [|do 7 (split; [reflexivity|])].
  - unfold oil_make.
    assert (HL : ∀ r, r ∈ ex_pvto → (4 ≤ length r)%nat ∧ val r 2 ≠ 0 ∧ und_table true r = Some (table_of true r ((length r - 1) / 3))).
    { intros r Hr. destruct (elem_of_list_lookup_1 _ _ Hr) as [k Hk]. destruct (rec_info ex_pvto ex_pvto_good k r Hk) as (H1 & H2 & H3 & _). split; [unfold rows in H2; lia|]. split; [apply (H3 0%nat); lia|]. by apply und_table_ok. }
    rewrite (column_ok ex_pvto 1), (column_inv_ok ex_pvto 2), (column_ok ex_pvto 3), (column_ok ex_pvto 0); try (intros r Hx; destruct (HL r Hx) as (? & ? & _); try split; try lia; done). cbn [mbind option_bind].
    rewrite (mapM_map _ (λ r, table_of true r ((length r - 1) / 3))) by (intros r Hx; apply (HL r Hx)). cbn [mbind option_bind]. fold ex_und.
    change (find_next (length ex_pvto) ex_und 1) with (Some 1%nat). cbn [mbind option_bind]. change (length ex_pvto) with 5%nat. rewrite decide_False by lia.
    cbn [for_loop]. rewrite (fill_big _ _ 0 ex_und _ _ 2 eq_refl ltac:(lia)). cbn [mbind option_bind]. rewrite (fill_big _ _ 1 ex_und _ _ 2 eq_refl ltac:(lia)). cbn [mbind option_bind]. rewrite (fill_big _ _ 2 ex_und _ _ 2 eq_refl ltac:(lia)). cbn [mbind option_bind].
    assert (E3 : fill_record 40 (firsts ex_pvto 0) 3 (ex_und, Some 2%nat, 1%nat) = Some (<[3%nat := [[40; 60]; [1 / 1; 1]; [1; 1]]]> ex_und, Some 1%nat, 4%nat)).
    { unfold fill_record. change (und_size ex_und 3) with (Some 1%nat). cbn [mbind option_bind]. rewrite decide_False by lia. rewrite decide_True by lia. change (find_next (length ex_und) ex_und (3 + 1)) with (Some 4%nat). cbn [mbind option_bind].
      change (ex_und !! 1%nat) with (Some (table_of true [1; 20; 1; 1; 30; 1; 1] 2)). change (ex_und !! 4%nat) with (Some (table_of true [4; 50; 1; 1; 60; 1; 1] 2)). change (ex_und !! 3%nat) with (Some (table_of true [3; 40; 1; 1] 1)). cbn [mbind option_bind].
      change (firsts ex_pvto 0 !! 3%nat) with (Some 3). change (firsts ex_pvto 0 !! 1%nat) with (Some 1). change (firsts ex_pvto 0 !! 4%nat) with (Some 4). cbn [mbind option_bind]. rewrite rdiv_Some by lra. cbn [mbind option_bind]. change (bool_decide (is_Some (Some 1%nat))) with true.
      rewrite ex_extend. cbn [mbind option_bind]. reflexivity. }
    rewrite E3. cbn [mbind option_bind]. rewrite (fill_big _ _ 4 (<[3%nat := [[40; 60]; [1 / 1; 1]; [1; 1]]]> ex_und) _ _ 2 ltac:(unfold und_size; rewrite list_lookup_insert_ne by done; reflexivity) ltac:(lia)). reflexivity.
  - intros [(s & (s0 & s1 & H0 & H1 & ->) & _ & Hz) _]. cbn [fst snd] in Hz.
    assert (HS : ∀ r s, segment (table_of true r 2) s → snd s = (val r 6 - val r 3) / (val r 4 - val r 1)).
    { intros r s (ps & bs & vs & i & p & q & b & c & v & u & E & H2 & H3 & H4 & H5 & H6 & H7 & ->). unfold table_of in E. injection E as <- <- <-. destruct i as [|[|i]]; [|done|done]. cbn in H2, H3, H6, H7. injection H2 as <-. injection H3 as <-. injection H6 as <-. injection H7 as <-. done. }
    rewrite (HS _ _ H0), (HS _ _ H1) in Hz. unfold val in Hz. cbn in Hz. lra.
Qed.
Print Assumptions C66_nearest_refuted.
(** A deck whose last record has one row: the constructor reads beyond the last table. *)
Theorem C66_last_row_refuted : ∃ recs, (2 ≤ length recs)%nat ∧ (∀ r, r ∈ recs → rows r 1 ∨ rows r 2) ∧ (∀ i j a b, (i < j)%nat → recs !! i = Some a → recs !! j = Some b → val a 1 < val b 1 ∧ val a 0 < val b 0) ∧ ∀ fuel, oil_make fuel [recs] = None.
Proof.
  exists [[0; 10; 1; 1; 20; 1; 1]; [1; 20; 1; 1]]. split; [cbn; lia|]. split; [intros r Hr; repeat (apply elem_of_cons in Hr as [->|Hr]; [unfold rows; cbn; auto|]); by apply elem_of_nil in Hr|]. split.
  - intros [|[|i]] [|[|j]] a b Hij Ha Hb; cbn in Ha, Hb; try lia; try done. injection Ha as <-. injection Hb as <-. unfold val. cbn. lra.
  - intros fuel. unfold oil_make. cbn [column mapM mbind option_bind lookup list_lookup length]. rewrite !(rdiv_Some 1 1) by lra. cbn [mbind option_bind mret option_ret].
    rewrite (und_table_ok true [0; 10; 1; 1; 20; 1; 1] 2), (und_table_ok true [1; 20; 1; 1] 1); [reflexivity|done| |done|].
    + intros _ [|j] Hj; [unfold val; cbn; lra|lia].
    + intros _ [|[|j]] Hj; [unfold val; cbn; lra|unfold val; cbn; lra|lia].
Qed.
Print Assumptions C66_last_row_refuted.
(** A deck of live gas. *)
Example ex_pvtg_made : ∃ G, gas_make [[[10; 1; 1; 1; 0; 1; 1]; [20; 1; 2; 1; 0; 2; 1]]] = Some G ∧ live_tables G [10; 20] [1; 2] [1; 1] [1; 1].
Proof.
  destruct (C66_gas [[10; 1; 1; 1; 0; 1; 1]; [20; 1; 2; 1; 0; 2; 1]]) as (G & E & H & _); [|exists G; split; [exact E|exact H]].
  split; [cbn; lia| |].
  - intros r Hr. repeat (apply elem_of_cons in Hr as [->|Hr]); [| |by apply elem_of_nil in Hr]; (exists 2%nat; split; [lia|]; split; [done|]; intros [|j] [|[|k]] Hjk; try lia; unfold val; cbn; lra).
  - intros [|[|i]] [|[|j]] a b Hij Ha Hb; cbn in Ha, Hb; try lia; try done. injection Ha as <-. injection Hb as <-. unfold val. cbn. lra.
Qed.
