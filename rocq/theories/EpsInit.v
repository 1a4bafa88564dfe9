(** Saturation functions of a reservoir (C64): from a deck. *)
From Coq Require Import Reals Lra Psatz.
From Verif Require Import Base LoopModel LoopProof TableModel TofSpec MiscSpec PhaseModel KrModel KrSpec KrProof KrProps KrInitModel EpsModel EpsSpec EpsPoints.
Local Open Scope R_scope.
Unset Default Proof Using.

(** The number a deck gives for a cell: that of the cell of the logically Cartesian
    grid. *)
Definition deck_value {X} (g : grid) (v : list X) (c : nat) : option X := match gr_global g with None => v !! c | Some gc => match gc !! c with None => None | Some p => v !! p end end.
(** The number that the saturation function of a cell has for a keyword: the smallest
    and largest water saturation, the critical saturations, and the values at the largest
    saturation and at that where the other phase stops to move. *)
Definition own_point (k : kw) (aqua : nat) (F : satfunc) (own : R) : Prop :=
  match k with
  | SWL => sf_smin F !! aqua = Some own | SWU => sf_smax F !! aqua = Some own
  | SWCR => sf_swcr F = own | SOWCR => sf_sowcr F = own
  | KRW => sf_krwmax F = own | KRO => sf_kromax F = own
  | KRWR => sf_krwr F = own | KRORW => sf_krorw F = own
  end.
Lemma own_point_ok k aqua F own : from_table k aqua F = Some own → own_point k aqua F own.
Proof. destruct k; cbn; intros H; by simplify_eq. Qed.
(** The columns of ENPTVD and of ENKRVD after the depth. *)
Definition enptvd_columns : list kw := [SWL; SWCR; SWU; SOWCR].
Definition enkrvd_columns : list kw := [KRW; KRO; KRWR; KRORW].

Lemma deck_value_eq {X} g (v : list X) c : (p ← deck_pos g c; v !! p) = deck_value g v c.
Proof. unfold deck_pos, deck_value. destruct (gr_global g) as [gc|]; [|done]. by destruct (gc !! c). Qed.
Lemma foldl_max l : ∀ z, (z ≤ foldl Z.max z l)%Z ∧ (∀ x, x ∈ l → (x ≤ foldl Z.max z l)%Z) ∧ (foldl Z.max z l = z ∨ foldl Z.max z l ∈ l).
Proof.
  induction l as [|a l IH]; intros z; cbn; [split; [lia|]; split; [intros x Hx; by apply elem_of_nil in Hx|by left]|].
  destruct (IH (Z.max z a)) as (H1 & H2 & H3). split; [lia|]. split; [intros x Hx; apply elem_of_cons in Hx as [->|Hx]; [lia|by apply H2]|].
  destruct H3 as [E|H3]; [|right; by right]. rewrite E. destruct (Z.max_spec z a) as [[_ ->]|[_ ->]]; [right; left|by left].
Qed.
Lemma mapM_seq {X} (f : nat → option X) n r : mapM f (seq 0 n) = Some r → length r = n ∧ ∀ i, (i < n)%nat → ∃ x, f i = Some x ∧ r !! i = Some x.
Proof.
  intros H. apply mapM_Some in H. split; [apply Forall2_length in H; by rewrite seq_length in H|].
  intros i Hi. destruct (Forall2_lookup_l _ _ _ i i H) as (x & E & Hx); [by rewrite lookup_seq_lt|eauto].
Qed.
Lemma mapM_seq_total {X} (f : nat → option X) n : (∀ i, (i < n)%nat → is_Some (f i)) → is_Some (mapM f (seq 0 n)).
Proof. intros H. apply mapM_is_Some_2. apply Forall_forall. intros i Hi. apply elem_of_seq in Hi. apply H. lia. Qed.

(** C64: after init every cell has the function of the table its SATNUM says. *)
Theorem C64_init mk m junk pu D g P : sp_init mk m junk pu D g = Some P →
  sp_pu P = pu ∧ sp_do_eps P = bool_decide (is_Some (d_endscale D)) ∧ (is_Some (d_endscale D) → sp_3pt P = d_scalecrs D) ∧
  (∀ cell F, (cell < gr_nc g)%nat → func_for_cell P cell = Some F →
    ∃ k, sat_init mk m (junk k) (d_swof D) (d_sgof D) k pu = Some F ∧ match d_satnum D with None => k = 0%nat | Some sn => deck_value g sn cell = Some (Z.of_nat k + 1)%Z end) ∧
  ((∃ uw ug, pu_used pu !! 0%nat = Some uw ∧ pu_used pu !! 2%nat = Some ug ∧ (uw ≠ 0%nat ∨ ug ≠ 0%nat)) → (∀ sn, d_satnum D = Some sn → Forall (λ z, (1 ≤ z)%Z) sn) →
    ∀ cell, (cell < gr_nc g)%nat → is_Some (func_for_cell P cell)).
Proof.
  unfold sp_init. intros H. apply bind_Some in H as (uo & Huo & H). destruct (decide (uo = 0%nat)); [done|].
  apply bind_Some in H as ([expected map] & Hmap & H). apply bind_Some in H as (uw & Huw & H). apply bind_Some in H as (ug & Hug & H). cbv zeta in H.
  destruct (decide (uw ≠ 0%nat ∧ _)) as [|T1]; [done|]. destruct (decide (ug ≠ 0%nat ∧ _)) as [|T2]; [done|]. destruct (decide (uw ≠ 0%nat ∧ ug ≠ 0%nat ∧ _)) as [|T3]; [done|].
  set (nt := if decide (uw ≠ 0%nat) then length (d_swof D) else length (d_sgof D)) in *. apply bind_Some in H as (funcs & Hfuncs & H). apply mapM_seq in Hfuncs as [Lf Hf].
  assert (HM : sp_pu P = pu ∧ sp_funcs P = funcs ∧ sp_map P = map ∧ sp_do_eps P = bool_decide (is_Some (d_endscale D)) ∧ (is_Some (d_endscale D) → sp_3pt P = d_scalecrs D)).
  { destruct (d_endscale D) as [[nodir revers]|] eqn:EE.
    - destruct (decide (uw = 0%nat ∨ ug ≠ 0%nat)); [done|]. destruct nodir; [|done]. destruct revers; [|done]. repeat (apply bind_Some in H as (? & _ & H)). injection H as <-. split_and!; try done; by intros [? ?].
    - injection H as <-. split_and!; try done; by intros [? ?]. }
  clear H. destruct HM as (M1 & M2 & M3 & M4 & M5). split; [done|]. split; [done|]. split; [done|].
  destruct (d_satnum D) as [sn|] eqn:ES.
  - apply bind_Some in Hmap as (z & Hz & Hmap). apply bind_Some in Hmap as (map' & Hm & Hmap). injection Hmap as <- <-. apply mapM_seq in Hm as [Lm Hm].
    assert (HC : ∀ cell, (cell < gr_nc g)%nat → ∃ v, deck_value g sn cell = Some v ∧ map' !! cell = Some (v - 1)%Z).
    { intros cell Hc. destruct (Hm cell Hc) as (x & E & Hx). apply bind_Some in E as (p & Hp & E). apply bind_Some in E as (v & Hv & E). injection E as <-. exists v. split; [|done]. rewrite <- deck_value_eq, Hp. done. }
    assert (HX : ∀ cell v, deck_value g sn cell = Some v → v ∈ sn). { intros cell v. unfold deck_value. destruct (gr_global g) as [gc|]; [destruct (gc !! cell); [|done]|]; apply elem_of_list_lookup_2. }
    assert (HF : ∀ cell v, (cell < gr_nc g)%nat → deck_value g sn cell = Some v → func_for_cell P cell = if decide (v - 1 < 0)%Z then None else funcs !! Z.to_nat (v - 1)).
    { intros cell v Hc Hv. destruct (HC cell Hc) as (v' & E1 & E2). assert (v' = v) as -> by congruence. unfold func_for_cell. rewrite M2, M3, E2. destruct map' as [|? ?]; [done|]. done. }
    split.
    + intros cell F Hc HFc. destruct (HC cell Hc) as (v & E1 & _). rewrite (HF cell v Hc E1) in HFc. destruct (decide (v - 1 < 0)%Z); [done|].
      apply lookup_lt_Some in HFc as Hlt. rewrite Lf in Hlt. destruct (Hf _ Hlt) as (F' & E3 & E4). assert (F' = F) as -> by congruence. exists (Z.to_nat (v - 1)). split; [done|]. rewrite E1. f_equal. lia.
    + intros (uw' & ug' & Hw' & Hg' & Hor) Hall cell Hc. specialize (Hall sn eq_refl). rewrite Forall_forall in Hall. destruct (HC cell Hc) as (v & E1 & _). pose proof (HX _ _ E1) as Hin. pose proof (Hall v Hin).
      rewrite (HF cell v Hc E1). rewrite decide_False by lia. apply lookup_lt_is_Some. rewrite Lf.
      destruct (foldl_max sn z) as (F1 & F2 & _). pose proof (F2 v Hin). 
      assert (uw' = uw) as -> by (cbn in Huw; congruence). assert (ug' = ug) as -> by (cbn in Hug; congruence).
      unfold nt. destruct (decide (uw ≠ 0%nat)) as [Hu|Hu]; [|assert (ug ≠ 0%nat) by tauto]; lia.
  - injection Hmap as <- <-. assert (HF : ∀ cell, func_for_cell P cell = funcs !! 0%nat) by (intros cell; unfold func_for_cell; by rewrite M3, M2). split.
    + intros cell F Hc HFc. rewrite HF in HFc. apply lookup_lt_Some in HFc as Hlt. rewrite Lf in Hlt. destruct (Hf _ Hlt) as (F' & E3 & E4). assert (F' = F) as -> by congruence. exists 0%nat. done.
    + intros (uw' & ug' & Hw' & Hg' & Hor) _ cell Hc. rewrite HF. apply lookup_lt_is_Some. rewrite Lf.
      assert (uw' = uw) as -> by (cbn in Huw; congruence). assert (ug' = ug) as -> by (cbn in Hug; congruence).
      unfold nt. destruct (decide (uw ≠ 0%nat)) as [Hu|Hu]; [|assert (ug ≠ 0%nat) by tauto]; lia.
Qed.

(** C64: a keyword of end-point scaling.  Its own values count before the tables by
    depth; where neither says anything, the number is that of the tables. *)
Theorem C64_keyword P D g k r : init_eps P D g k [] = Some r →
  match d_field D k with
  | Some v => length r = gr_nc g ∧ ∀ c, (c < gr_nc g)%nat → r !! c = deck_value g v c ∧ is_Some (r !! c)
  | None =>
      ∀ columns vd, (columns, vd) = (if is_S k then (enptvd_columns, d_enptvd D) else (enkrvd_columns, d_enkrvd D)) →
      match vd with
      | None => r = []
      | Some (mask, table) => ∃ j, columns !! j = Some k ∧
          (mask !! j = Some false → r = []) ∧
          (mask !! j = Some true → length r = gr_nc g ∧ ∀ c, (c < gr_nc g)%nat →
            ∃ F aqua own jtab depth vals zc, func_for_cell P c = Some F ∧ pu_pos (sp_pu P) !! 0%nat = Some aqua ∧ own_point k aqua F own ∧
              (sp_map P = [] ∧ jtab = 0%nat ∨ sp_map P !! c = Some (Z.of_nat jtab)) ∧
              (table !! S j ≫= (.!! jtab)) = Some vals ∧
              (head vals = Some (-1) ∧ r !! c = Some own ∨
               head vals ≠ Some (-1) ∧ (table !! 0%nat ≫= (.!! jtab)) = Some depth ∧ gr_centroids g !! (gr_dim g * c + gr_dim g - 1)%nat = Some zc ∧
               ∃ front back, head depth = Some front ∧ last depth = Some back ∧
                 (front <= zc <= back → r !! c = linear_interpolation (length depth) depth vals zc ∧ is_Some (r !! c)) ∧ (¬ (front <= zc <= back) → r !! c = Some own)))
      end
  end.
Proof.
  unfold init_eps. intros H. apply bind_Some in H as (aqua & Ha & H). cbv zeta in H. set (vd := if is_S k then d_enptvd D else d_enkrvd D) in *.
  apply bind_Some in H as (active & Hact & H). apply bind_Some in H as (sp & Hsp & H).
  destruct (d_field D k) as [v|] eqn:EF.
  - injection Hact as <-. apply mapM_seq in Hsp as [Ls Hs]. rewrite <- Ls in *.
    assert (HL : for_loop (length sp) 0 (λ c sp, p ← deck_pos g c; x ← v !! p; upd sp c x) sp = Some r) by (destruct sp; [injection H as <-; done|done]). clear H Hs.
    assert (G : ∀ n lo l l', (lo + n = length sp)%nat → length l = length sp → for_loop n lo (λ c sp, p ← deck_pos g c; x ← v !! p; upd sp c x) l = Some l' →
      length l' = length sp ∧ (∀ c, (c < lo)%nat → l' !! c = l !! c) ∧ ∀ c, (lo ≤ c < lo + n)%nat → l' !! c = deck_value g v c).
    { induction n as [|n IH]; intros lo l l' Hlo Hl E; cbn [for_loop] in E; [injection E as <-; split_and!; try done; intros; lia|].
      apply bind_Some in E as (l1 & E1 & E). apply bind_Some in E1 as (p & Hp & E1). apply bind_Some in E1 as (x & Hx & E1). rewrite upd_Some in E1 by lia. injection E1 as <-.
      destruct (IH (S lo) _ l' ltac:(lia) ltac:(by rewrite insert_length) E) as (I1 & I2 & I3). split; [done|]. split.
      - intros c Hc. rewrite I2 by lia. by rewrite list_lookup_insert_ne by lia.
      - intros c Hc. destruct (decide (c = lo)) as [->|]; [|apply I3; lia]. rewrite I2 by lia. rewrite list_lookup_insert by lia. rewrite <- deck_value_eq, Hp. done. }
    destruct (G (length sp) 0%nat sp r eq_refl eq_refl HL) as (G1 & _ & G3). split; [done|]. intros c Hc. split; [apply G3; lia|]. apply lookup_lt_is_Some. lia.
  - intros columns vd' Heq. assert (vd' = vd) as -> by (unfold vd; destruct (is_S k); injection Heq; done). destruct vd as [[mask table]|].
    2:{ injection Hact as <-. injection Hsp as <-. by injection H as <-. }
    assert (HJ : columns !! (itab k - 1)%nat = Some k) by (destruct k; cbn in Heq |- *; injection Heq as -> _; done). assert (HS : S (itab k - 1) = itab k) by (by destruct k).
    exists (itab k - 1)%nat. split; [done|]. split; intros Hm; rewrite Hm in Hact; injection Hact as <-.
    + injection Hsp as <-. by injection H as <-.
    + apply mapM_seq in Hsp as [Ls Hs].
      set (step := λ (cell : nat) (sp : list R), jtab ← (match sp_map P with [] => Some 0%Z | _ => sp_map P !! cell end);
          if decide (jtab < 0)%Z then None else let jtab := Z.to_nat jtab in '(_, table) ← Some (mask, table); t ← table !! itab k; vals ← t !! jtab; v0 ← vals !! 0%nat;
          if Req_EM_T v0 (-1) then Some sp else t0 ← table !! 0%nat; depth ← t0 !! jtab; zc ← gr_centroids g !! (gr_dim g * cell + gr_dim g - 1)%nat; front ← head depth; back ← last depth;
          if Rge_dec zc front then if Rle_dec zc back then x ← linear_interpolation (length depth) depth vals zc; upd sp cell x else Some sp else Some sp) in H.
      assert (HL : for_loop (gr_nc g) 0 step sp = Some r) by (destruct sp; [destruct (gr_nc g); [exact H|done]|exact H]). clear H.
      assert (ST : ∀ c l l', length l = gr_nc g → (c < gr_nc g)%nat → step c l = Some l' → length l' = gr_nc g ∧ (∀ i, i ≠ c → l' !! i = l !! i) ∧
        ∃ jtab depth vals zc, (sp_map P = [] ∧ jtab = 0%nat ∨ sp_map P !! c = Some (Z.of_nat jtab)) ∧ (table !! S (itab k - 1) ≫= (.!! jtab)) = Some vals ∧
          (head vals = Some (-1) ∧ l' !! c = l !! c ∨
           head vals ≠ Some (-1) ∧ (table !! 0%nat ≫= (.!! jtab)) = Some depth ∧ gr_centroids g !! (gr_dim g * c + gr_dim g - 1)%nat = Some zc ∧
           ∃ front back, head depth = Some front ∧ last depth = Some back ∧
             (front <= zc <= back → l' !! c = linear_interpolation (length depth) depth vals zc) ∧ (¬ (front <= zc <= back) → l' !! c = l !! c))).
      { intros c l l' Hl Hc E. unfold step in E. apply bind_Some in E as (z & Hz & E). destruct (decide (z < 0)%Z); [done|]. cbv zeta in E. cbn [mbind option_bind] in E.
        apply bind_Some in E as (t & Ht & E). apply bind_Some in E as (vals & Hv & E). apply bind_Some in E as (v0 & Hv0 & E).
        assert (HZ : sp_map P = [] ∧ Z.to_nat z = 0%nat ∨ sp_map P !! c = Some (Z.of_nat (Z.to_nat z))). { destruct (sp_map P) eqn:EM; [left; injection Hz as <-; done|]. right. rewrite Hz. f_equal. lia. }
        rewrite HS. rewrite <- head_lookup in Hv0. destruct (Req_EM_T v0 (-1)) as [->|Hne].
        - injection E as <-. split; [done|]. split; [done|]. exists (Z.to_nat z), [], vals, 0. split; [done|]. split; [by rewrite Ht|]. left. done.
        - apply bind_Some in E as (t0 & Ht0 & E). apply bind_Some in E as (depth & Hd & E). apply bind_Some in E as (zc & Hzc & E). apply bind_Some in E as (front & Hfr & E). apply bind_Some in E as (back & Hb & E).
          assert (∃ front back, head depth = Some front ∧ last depth = Some back ∧ (length l' = gr_nc g ∧ (∀ i, i ≠ c → l' !! i = l !! i)) ∧
             (front <= zc <= back → l' !! c = linear_interpolation (length depth) depth vals zc) ∧ (¬ (front <= zc <= back) → l' !! c = l !! c)) as (f & b & E1 & E2 & (E3 & E4) & E5 & E6).
          { exists front, back. split; [done|]. split; [done|]. destruct (Rge_dec zc front); [destruct (Rle_dec zc back)|].
            - apply bind_Some in E as (x & Hx & E). rewrite upd_Some in E by lia. injection E as <-. split; [split; [by rewrite insert_length|intros; by rewrite list_lookup_insert_ne by done]|]. split; [intros _; rewrite list_lookup_insert by lia; by rewrite Hx|intros Hno; destruct Hno; lra].
            - injection E as <-. split; [done|]. split; [intros [? ?]; exfalso; lra|done].
            - injection E as <-. split; [done|]. split; [intros [? ?]; exfalso; lra|done]. }
          split; [done|]. split; [done|]. exists (Z.to_nat z), depth, vals, zc. split; [done|]. split; [by rewrite Ht|]. right. split; [rewrite Hv0; congruence|]. split; [by rewrite Ht0|]. split; [done|]. exists f, b. done. }
      assert (G : ∀ n lo l l', (lo + n = gr_nc g)%nat → length l = gr_nc g → for_loop n lo step l = Some l' → length l' = gr_nc g ∧ (∀ c, (c < lo)%nat → l' !! c = l !! c) ∧
        ∀ c, (lo ≤ c < lo + n)%nat → ∃ l1 l2, length l1 = gr_nc g ∧ step c l1 = Some l2 ∧ l1 !! c = l !! c ∧ l' !! c = l2 !! c).
      { induction n as [|n IH]; intros lo l l' Hlo Hl E; cbn [for_loop] in E; [injection E as <-; split_and!; try done; intros; lia|].
        apply bind_Some in E as (l1 & E1 & E). destruct (ST lo l l1 Hl ltac:(lia) E1) as (S1 & S2 & _). destruct (IH (S lo) l1 l' ltac:(lia) S1 E) as (I1 & I2 & I3). split; [done|]. split.
        - intros c Hc. rewrite I2 by lia. apply S2. lia.
        - intros c Hc. destruct (decide (c = lo)) as [->|].
          + exists l, l1. split; [done|]. split; [done|]. split; [done|]. apply I2. lia.
          + destruct (I3 c ltac:(lia)) as (a & b & A1 & A2 & A3 & A4). exists a, b. split; [done|]. split; [done|]. split; [|done]. rewrite A3. apply S2. lia. }
      destruct (G (gr_nc g) 0%nat sp r eq_refl Ls HL) as (G1 & _ & G3). split; [done|]. intros c Hc. destruct (Hs c Hc) as (own & Hown & Hsc). apply bind_Some in Hown as (F & HF & Hown).
      destruct (G3 c ltac:(lia)) as (l1 & l2 & A1 & A2 & A3 & A4). destruct (ST c l1 l2 A1 Hc A2) as (_ & _ & jtab & depth & vals & zc & B1 & B2 & B3).
      exists F, aqua, own, jtab, depth, vals, zc. split; [done|]. split; [done|]. split; [by apply own_point_ok|]. split; [done|]. split; [done|]. rewrite Hsc in A3. rewrite A3 in B3. rewrite A4.
      destruct B3 as [B3|(B3 & B4 & B5 & front & back & B6 & B7 & B8 & B9)]; [by left|right]. split; [done|]. split; [done|]. split; [done|]. exists front, back. split; [done|]. split; [done|]. split; [|done].
      intros Hin. split; [by apply B8|]. rewrite <- A4. apply lookup_lt_is_Some. lia.
Qed.
Print Assumptions C64_init.
Print Assumptions C64_keyword.
(** The arrays of end-point scaling are those of their keywords. *)
Definition array_of (E : eps_params) (k : kw) : list R :=
  match k with SWL => e_swl E | SWCR => e_swcr E | SWU => e_swu E | SOWCR => e_sowcr E | KRW => e_krw E | KRWR => e_krwr E | KRO => e_kro E | KRORW => e_krorw E end.
Theorem C64_arrays mk m junk pu D g P : sp_init mk m junk pu D g = Some P →
  if decide (is_Some (d_endscale D)) then ∀ k, init_eps P D g k [] = Some (array_of (sp_eps P) k) else ∀ k, array_of (sp_eps P) k = [].
Proof.
  unfold sp_init. intros H. apply bind_Some in H as (uo & Huo & H). destruct (decide (uo = 0%nat)); [done|].
  apply bind_Some in H as ([expected map] & Hmap & H). apply bind_Some in H as (uw & Huw & H). apply bind_Some in H as (ug & Hug & H). cbv zeta in H.
  destruct (decide (uw ≠ 0%nat ∧ _)) as [|T1]; [done|]. destruct (decide (ug ≠ 0%nat ∧ _)) as [|T2]; [done|]. destruct (decide (uw ≠ 0%nat ∧ ug ≠ 0%nat ∧ _)) as [|T3]; [done|].
  apply bind_Some in H as (funcs & Hfuncs & H). destruct (d_endscale D) as [[nodir revers]|].
  - destruct (decide (uw = 0%nat ∨ ug ≠ 0%nat)); [done|]. destruct nodir; [|done]. destruct revers; [|done]. rewrite decide_True by eauto.
    do 8 (apply bind_Some in H as (? & ? & H)). injection H as <-. intros k. destruct k; assumption.
  - injection H as <-. rewrite decide_False by (by intros [? ?]). by intros [].
Qed.
Print Assumptions C64_arrays.
