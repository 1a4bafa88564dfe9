(** Saturation functions (C63): tables from a deck. *)
From Coq Require Import Reals Lra Psatz.
From Verif Require Import Base LoopModel TableModel TofSpec MiscSpec PhaseModel PhaseProps UTableProof UTableProps NTableProof NTableProps MonoModel MonoProps KrModel KrSpec KrProof KrProps KrInitModel.
Local Open Scope R_scope.
Unset Default Proof Using.

(** A proper SWOF table: increasing saturations, relative permeability of water
    rising from 0, that of oil falling to 0. *)
Record good_swof (sw krw krow pcow : list R) : Prop := {
  g_len : (2 ≤ length sw)%nat; g_krw : length krw = length sw; g_krow : length krow = length sw; g_pc : length pcow = length sw;
  g_sw : ordered 1 sw; g_up : weakly 1 krw; g_down : weakly (-1) krow; g_0 : head krw = Some 0; g_n : last krow = Some 0 }.

Lemma scan_up_ok krw : ∀ n i, (i + n = length krw)%nat → ∃ r, scan_up n i krw = Some r ∧
  match r with
  | Some j => (i ≤ j < i + n)%nat ∧ (∃ k, krw !! j = Some k ∧ 0 < k) ∧ ∀ l k, (i ≤ l < j)%nat → krw !! l = Some k → k <= 0
  | None => ∀ l k, (i ≤ l)%nat → krw !! l = Some k → k <= 0
  end.
Proof.
  induction n as [|n IH]; intros i Hi; cbn.
  - exists None. split; [done|]. intros l k Hl Hk. apply lookup_lt_Some in Hk. lia.
  - destruct (lookup_lt_is_Some_2 krw i) as [k Hk]; [lia|]. rewrite Hk. cbn. destruct (Rlt_dec 0 k) as [H|H].
    + exists (Some i). split; [done|]. split; [lia|]. split; [eauto|]. intros; lia.
    + destruct (IH (i + 1)%nat) as (r & E & Hr); [lia|]. exists r. split; [done|]. destruct r as [j|].
      * destruct Hr as (H1 & H2 & H3). split; [lia|]. split; [done|]. intros l k' Hl Hk'. destruct (decide (l = i)) as [->|]; [|apply (H3 l); [lia|done]]. assert (k' = k) as -> by congruence. lra.
      * intros l k' Hl Hk'. destruct (decide (l = i)) as [->|]; [|apply (Hr l); [lia|done]]. assert (k' = k) as -> by congruence. lra.
Qed.
Lemma scan_down_ok krow : ∀ i, (i ≤ length krow)%nat → ∃ r, scan_down i krow = Some r ∧
  match r with
  | Some j => (1 ≤ j ≤ i)%nat ∧ (∃ k, krow !! (j - 1)%nat = Some k ∧ 0 < k) ∧ ∀ l k, (j ≤ l < i)%nat → krow !! l = Some k → k <= 0
  | None => ∀ l k, (l < i)%nat → krow !! l = Some k → k <= 0
  end.
Proof.
  induction i as [|i IH]; intros Hi; cbn.
  - exists None. split; [done|]. intros; lia.
  - destruct (lookup_lt_is_Some_2 krow i) as [k Hk]; [lia|]. rewrite Hk. cbn. destruct (Rlt_dec 0 k) as [H|H].
    + exists (Some (S i)). split; [done|]. split; [lia|]. split; [exists k; replace (S i - 1)%nat with i by lia; done|]. intros; lia.
    + destruct IH as (r & E & Hr); [lia|]. exists r. split; [done|]. destruct r as [j|].
      * destruct Hr as (H1 & H2 & H3). split; [lia|]. split; [done|]. intros l k' Hl Hk'. destruct (decide (l = i)) as [->|]; [|apply (H3 l); [lia|done]]. assert (k' = k) as -> by congruence. lra.
      * intros l k' Hl Hk'. destruct (decide (l = i)) as [->|]; [|apply (Hr l); [lia|done]]. assert (k' = k) as -> by congruence. lra.
Qed.

(** ** Interpolation in a column *)
Section column.
Context (sw : list R) (Hsw : ordered 1 sw) (Hn : (2 ≤ length sw)%nat).
Definition col (y : list R) (x : R) : R := tab (of_ntable (NTable sw y [] [])) x.
Lemma col_node y i x v : length y = length sw → sw !! i = Some x → y !! i = Some v → col y x = v.
Proof using Hsw Hn. intros HL Hx Hv. unfold col, tab. cbn. unfold nt_eval. cbn. by rewrite (C28_nodes 1 sw y _ i x v Hsw ltac:(lia) HL (le_n _) Hx Hv). Qed.
Lemma col_mono s y x z : length y = length sw → weakly s y → x <= z → s * col y x <= s * col y z.
Proof using Hsw Hn.
  intros HL Hw Hx. unfold col, tab. cbn. unfold nt_eval. cbn. destruct (C28_monotone 1 s sw y (length sw) x z Hsw ltac:(lia) HL (le_n _) Hw ltac:(lra)) as (u & v & -> & -> & H). done.
Qed.
Lemma col_cell y i x0 x1 y0 y1 x : length y = length sw → sw !! i = Some x0 → sw !! S i = Some x1 → y !! i = Some y0 → y !! S i = Some y1 → x0 <= x <= x1 → col y x = y0 + (y1 - y0) * ((x - x0) / (x1 - x0)).
Proof using Hsw Hn.
  intros HL H1 H2 H3 H4 Hx. unfold col, tab. cbn. unfold nt_eval. cbn. rewrite (C28_interpolant 1 sw y (length sw) x i x0 x1 y0 y1 Hsw HL (le_n _) H1 H2 H3 H4 ltac:(lra)). done.
Qed.
End column.

(** ** The critical saturations *)
Lemma nt_make_ordered sw y : ordered 1 sw → nt_make sw y = Some (NTable sw y [] []).
Proof.
  intros H. unfold nt_make. assert (is_nondecreasing sw = true) as ->; [|done].
  induction sw as [|a [|b sw] IH]; [done|done|]. cbn. pose proof (proj2 H 0%nat 1%nat a b ltac:(lia) eq_refl eq_refl). destruct (Rlt_dec b a); [lra|].
  apply IH. split; [by left|]. intros i j x y' Hij Hx Hy. apply (proj2 H (S i) (S j) x y'); [lia|done|done].
Qed.
(** What init promises about water and oil. *)
Record critical (F : satfunc) (sw krw krow : list R) : Prop := {
  c_water : ∀ x, val sw 0 <= x <= sf_swcr F → tab (sf_krw F) x = 0;
  c_water' : ∀ x, sf_swcr F < x → x <= val sw (length sw - 1) → 0 < tab (sf_krw F) x;
  c_swcr : val sw 0 <= sf_swcr F <= val sw (length sw - 1);
  c_oil : ∀ x, 1 - sf_sowcr F <= x <= val sw (length sw - 1) → tab (sf_krow F) x = 0;
  c_oil' : ∀ x, val sw 0 <= x → x < 1 - sf_sowcr F → 0 < tab (sf_krow F) x;
  c_sowcr : val sw 0 <= 1 - sf_sowcr F <= val sw (length sw - 1);
  c_krorw : 0 < val krw (length sw - 1) → tab (sf_krow F) (sf_swcr F) = sf_krorw F;
  c_krwr : 0 < val krow 0 → tab (sf_krw F) (1 - sf_sowcr F) = sf_krwr F;
  c_krwmax : tab (sf_krw F) (val sw (length sw - 1)) = sf_krwmax F;
  c_kromax : tab (sf_krow F) (val sw 0) = sf_kromax F;
  c_krocw : sf_krocw F = sf_kromax F }.
Lemma init_water_ok F swof k sw krw krow pcow i : good_swof sw krw krow pcow → swof !! k = Some [sw; krw; krow; pcow] →
  pos F Aqua = Some i → (i < length (sf_smin F))%nat → (i < length (sf_smax F))%nat →
  ∃ F' , init_water mk_nonuniform Simple F swof k = Some (F', val sw 0, val sw (length sw - 1)) ∧ critical F' sw krw krow ∧
    sf_pu F' = sf_pu F ∧ sf_smin F' = <[i:=val sw 0]> (sf_smin F) ∧ sf_smax F' = <[i:=val sw (length sw - 1)]> (sf_smax F) ∧
    sf_krw F' = of_ntable (NTable sw krw [] []) ∧ sf_krow F' = of_ntable (NTable sw krow [] []) ∧ sf_pcow F' = of_ntable (NTable sw pcow [] []).
Proof.
  intros G Hk Hi Hmin Hmax. destruct G as [G1 G2 G3 G4 G5 G6 G7 G8 G9]. set (n := length sw) in *.
  assert (Hv : ∀ l j, length l = n → (j < n)%nat → l !! j = Some (val l j)). { intros l j HL Hj. unfold val. destruct (lookup_lt_is_Some_2 l j) as [v Hv]; [lia|]. by rewrite Hv. }
  assert (Hlast : ∀ l, length l = n → last l = Some (val l (n - 1))). { intros l HL. rewrite last_lookup. replace (pred (length l)) with (n - 1)%nat by lia. apply Hv; [done|lia]. }
  assert (Hhead : ∀ l, length l = n → head l = Some (val l 0)). { intros l HL. rewrite head_lookup. apply Hv; [done|lia]. }
  assert (Eop : val krow (n - 1) = 0) by (rewrite (Hlast krow G3) in G9; congruence). assert (Ew0 : val krw 0 = 0) by (rewrite (Hhead krw G2) in G8; congruence).
  unfold init_water. rewrite Hk. cbn [mbind option_bind lookup list_lookup]. rewrite G8, G9. cbn [mbind option_bind]. destruct (Req_EM_T 0 0); [|done]. cbn [mbind option_bind].
  unfold mk_nonuniform. rewrite !nt_make_ordered by done. cbn [mbind option_bind]. rewrite (Hv krow 0%nat G3 ltac:(lia)), (Hv sw 0%nat eq_refl ltac:(lia)). cbn [mbind option_bind]. rewrite Hi. cbn [mbind option_bind].
  rewrite (upd_Some (sf_smin F)) by done. cbn [mbind option_bind]. rewrite (Hlast sw eq_refl). cbn [mbind option_bind]. rewrite (upd_Some (sf_smax F)) by done. cbn [mbind option_bind].
  rewrite (Hlast krw G2), (Hhead krow G3). cbn [mbind option_bind]. fold n.
  destruct (scan_up_ok krw (n - 1) 1) as (up & -> & Hup); [lia|]. destruct (scan_down_ok krow (n - 1)) as (down & -> & Hdown); [lia|].
  assert (Hsm : ∀ a b, (a ≤ b < n)%nat → val sw a <= val sw b). { intros a b Hab. destruct (decide (a = b)) as [->|]; [lra|]. pose proof (proj2 G5 a b _ _ ltac:(lia) (Hv sw a eq_refl ltac:(lia)) (Hv sw b eq_refl ltac:(lia))). lra. }
  assert (Hst : ∀ a b, (a < b < n)%nat → val sw a < val sw b). { intros a b Hab. pose proof (proj2 G5 a b _ _ ltac:(lia) (Hv sw a eq_refl ltac:(lia)) (Hv sw b eq_refl ltac:(lia))). lra. }
  assert (Hwm : ∀ a b, (a ≤ b < n)%nat → val krw a <= val krw b). { intros a b Hab. pose proof (proj2 G6 a b _ _ ltac:(lia) (Hv krw a G2 ltac:(lia)) (Hv krw b G2 ltac:(lia))). lra. }
  assert (Hom : ∀ a b, (a ≤ b < n)%nat → val krow b <= val krow a). { intros a b Hab. pose proof (proj2 G7 a b _ _ ltac:(lia) (Hv krow a G3 ltac:(lia)) (Hv krow b G3 ltac:(lia))). lra. }
  assert (CN : ∀ y j, length y = n → (j < n)%nat → col sw y (val sw j) = val y j). { intros y j HL Hj. apply (col_node sw G5 G1 y j); [done|by apply Hv|by apply Hv]. }
  assert (CW : ∀ x z, x <= z → col sw krw x <= col sw krw z). { intros x z Hx. pose proof (col_mono sw G5 G1 1 krw x z G2 G6 Hx). lra. }
  assert (CO : ∀ x z, x <= z → col sw krow z <= col sw krow x). { intros x z Hx. pose proof (col_mono sw G5 G1 (-1) krow x z G3 G7 Hx). lra. }
  (* critical water *)
  assert (∃ a b, (match up with Some i => a ← sw !! (i - 1)%nat; b ← krow !! (i - 1)%nat; Some (a, b) | None => Some (val sw (n - 1), val krow 0) end) = Some (a, b) ∧
    (∀ x, val sw 0 <= x <= a → col sw krw x = 0) ∧ (∀ x, a < x → x <= val sw (n - 1) → 0 < col sw krw x) ∧ val sw 0 <= a <= val sw (n - 1) ∧ (0 < val krw (n - 1) → col sw krow a = b)) as (swcr & krorw & EQ0 & W1 & W2 & W3 & W4).
  { destruct up as [j|].
    - destruct Hup as (Hj & (k' & Hkj & Hpos) & Hz). exists (val sw (j - 1)), (val krow (j - 1)). split; [rewrite (Hv sw), (Hv krow) by lia; done|].
      rewrite (Hv krw j G2 ltac:(lia)) in Hkj. injection Hkj as Hkj.
      assert (Ez : val krw (j - 1) = 0). { apply Rle_antisym; [|rewrite <- Ew0; apply Hwm; lia]. destruct (decide (j = 1%nat)) as [->|]; [change (1 - 1)%nat with 0%nat; lra|]. apply (Hz (j - 1)%nat); [lia|]. apply Hv; [done|lia]. }
      split_and!.
      + intros x Hx. apply Rle_antisym; [|].
        * rewrite <- Ez, <- (CN krw (j - 1)%nat G2 ltac:(lia)). apply CW. lra.
        * rewrite <- Ew0, <- (CN krw 0%nat G2 ltac:(lia)). apply CW. lra.
      + intros x Hx _. destruct (Rle_or_lt (val sw j) x) as [Hle|Hlt].
        * pose proof (CW _ _ Hle). rewrite (CN krw j G2 ltac:(lia)) in H. lra.
        * pose proof (Hst (j - 1)%nat j ltac:(lia)) as Hs. rewrite (col_cell sw G5 G1 krw (j - 1) (val sw (j - 1)) (val sw j) (val krw (j - 1)) (val krw j) x); [|done|apply Hv; [done|lia]| |apply Hv; [done|lia]| |lra].
          2,3: replace (S (j - 1)) with j by lia; apply Hv; [done|lia]. rewrite Ez. rewrite Rplus_0_l, Rminus_0_r. apply Rmult_lt_0_compat; [lra|]. apply Rdiv_lt_0_compat; lra.
      + apply Hsm. lia.
      + apply Hsm. lia.
      + intros _. apply CN; [done|lia].
    - exists (val sw (n - 1)), (val krow 0). split; [done|]. 
      assert (Ez : val krw (n - 1) = 0). { apply Rle_antisym; [|rewrite <- Ew0; apply Hwm; lia]. apply (Hup (n - 1)%nat); [lia|]. apply Hv; [done|lia]. }
      split_and!; [|intros; lra|apply Hsm; lia|lra|intros; lra].
      intros x Hx. apply Rle_antisym.
      + rewrite <- Ez, <- (CN krw (n - 1)%nat G2 ltac:(lia)). apply CW. lra.
      + rewrite <- Ew0, <- (CN krw 0%nat G2 ltac:(lia)). apply CW. lra. }
  (* critical oil *)
  assert (∃ a b, (match down with Some i => a ← sw !! i; b ← krw !! i; Some (1 - a, b) | None => Some (1 - val sw 0, val krw (n - 1)) end) = Some (a, b) ∧
    (∀ x, 1 - a <= x <= val sw (n - 1) → col sw krow x = 0) ∧ (∀ x, val sw 0 <= x → x < 1 - a → 0 < col sw krow x) ∧ val sw 0 <= 1 - a <= val sw (n - 1) ∧ (0 < val krow 0 → col sw krw (1 - a) = b)) as (sowcr & krwr & EQ & O1 & O2 & O3 & O4).
  { destruct down as [j|].
    - destruct Hdown as (Hj & (k' & Hkj & Hpos) & Hz). exists (1 - val sw j), (val krw j). split; [rewrite (Hv sw), (Hv krw) by lia; done|]. replace (1 - (1 - val sw j)) with (val sw j) by lra.
      rewrite (Hv krow (j - 1)%nat G3 ltac:(lia)) in Hkj. injection Hkj as Hkj.
      assert (Ez : val krow j = 0). { apply Rle_antisym; [|rewrite <- Eop; apply Hom; lia]. destruct (decide (j = n - 1)%nat) as [->|]; [lra|]. apply (Hz j); [lia|]. apply Hv; [done|lia]. }
      split_and!.
      + intros x Hx. apply Rle_antisym.
        * rewrite <- Ez, <- (CN krow j G3 ltac:(lia)). apply CO. lra.
        * rewrite <- Eop, <- (CN krow (n - 1)%nat G3 ltac:(lia)). apply CO. lra.
      + intros x _ Hx. destruct (Rle_or_lt x (val sw (j - 1))) as [Hle|Hlt].
        * pose proof (CO _ _ Hle). rewrite (CN krow (j - 1)%nat G3 ltac:(lia)) in H. lra.
        * pose proof (Hst (j - 1)%nat j ltac:(lia)) as Hs. rewrite (col_cell sw G5 G1 krow (j - 1) (val sw (j - 1)) (val sw j) (val krow (j - 1)) (val krow j) x); [|done|apply Hv; [done|lia]| |apply Hv; [done|lia]| |lra].
          2,3: replace (S (j - 1)) with j by lia; apply Hv; [done|lia]. rewrite Ez. set (u := val krow (j - 1)) in *.
          replace (u + (0 - u) * ((x - val sw (j - 1)) / (val sw j - val sw (j - 1)))) with (u * ((val sw j - x) / (val sw j - val sw (j - 1)))) by (field; lra). apply Rmult_lt_0_compat; [lra|]. apply Rdiv_lt_0_compat; lra.
      + apply Hsm. lia.
      + apply Hsm. lia.
      + intros _. apply CN; [done|lia].
    - exists (1 - val sw 0), (val krw (n - 1)). split; [done|]. replace (1 - (1 - val sw 0)) with (val sw 0) by lra.
      assert (Ez : val krow 0 = 0). { apply Rle_antisym; [|rewrite <- Eop; apply Hom; lia]. apply (Hdown 0%nat); [lia|]. apply Hv; [done|lia]. }
      split_and!; [|intros; lra|lra|apply Hsm; lia|intros; lra].
      intros x Hx. apply Rle_antisym.
      + rewrite <- Ez, <- (CN krow 0%nat G3 ltac:(lia)). apply CO. lra.
      + rewrite <- Eop, <- (CN krow (n - 1)%nat G3 ltac:(lia)). apply CO. lra. }
  cbn [mbind option_bind] in EQ0, EQ |- *. rewrite EQ0. cbn [mbind option_bind]. rewrite EQ. cbn [mbind option_bind]. eexists. split; [done|]. cbn [sf_pu sf_smin sf_smax sf_krw sf_krow sf_pcow]. split; [|done].
  split; cbn [sf_swcr sf_sowcr sf_krw sf_krow sf_krorw sf_krwr sf_krwmax sf_kromax sf_krocw]; fold n; try done.
  - apply CN; [done|lia].
  - apply CN; [done|lia].
Qed.

(** The object of water-oil or of water-oil-gas made from proper tables: the bounds
    of the saturations; krw is 0 up to swcr and positive above it, krow positive below
    1 - sowcr and 0 from there on, and the values kept are those of the tables at
    these saturations. *)
Theorem C63_init F0 swof sgof k pu g sw krw krow pcow sg krg krog pcog : phases (SatFunc (sf_smin F0) (sf_smax F0) (sf_krwmax F0) (sf_kromax F0) (sf_swcr F0) (sf_krwr F0) (sf_sowcr F0) (sf_krorw F0) pu
    (sf_krw F0) (sf_krow F0) (sf_pcow F0) (sf_krg F0) (sf_krog F0) (sf_pcog F0) (sf_krocw F0)) true g →
  length (sf_smin F0) = 3%nat → length (sf_smax F0) = 3%nat →
  good_swof sw krw krow pcow → swof !! k = Some [sw; krw; krow; pcow] →
  (g = true → sgof !! k = Some [sg; krg; krog; pcog] ∧ ordered 1 sg ∧ (1 ≤ length sg)%nat ∧ Rabs (val sg (length sg - 1) + val sw 0 - 1) <= / 1000) →
  ∃ F, sat_init mk_nonuniform Simple F0 swof sgof k pu = Some F ∧ phases F true g ∧ critical F sw krw krow ∧
    sf_krw F = of_ntable (NTable sw krw [] []) ∧ sf_krow F = of_ntable (NTable sw krow [] []) ∧ sf_pcow F = of_ntable (NTable sw pcow [] []) ∧
    val (sf_smin F) 0 = val sw 0 ∧ val (sf_smax F) 0 = val sw (length sw - 1) ∧
    val (sf_smin F) 1 = 1 - val sw (length sw - 1) ∧ val (sf_smax F) 1 = 1 - val sw 0 ∧ length (sf_smin F) = 3%nat ∧ length (sf_smax F) = 3%nat ∧
    (g = true → val (sf_smin F) 2 = val sg 0 ∧ val (sf_smax F) 2 = val sg (length sg - 1) ∧
      sf_krg F = of_ntable (NTable sg krg [] []) ∧ sf_krog F = of_ntable (NTable sg krog [] []) ∧ sf_pcog F = of_ntable (NTable sg pcog [] [])).
Proof.
  intros HP L1 L2 G Hk Hg. unfold sat_init. set (F := SatFunc _ _ _ _ _ _ _ _ pu _ _ _ _ _ _ _) in *. cbv zeta.
  assert (HPu : ∀ F', sf_pu F' = pu → phases F' true g). { intros F' E. destruct HP as (ju & jp & has & ? & ? & E' & ? & ?). exists ju, jp, has. by rewrite E. }
  destruct (list3 (sf_smin F0) ltac:(lia)) as (m0 & m1 & m2 & [|? ?] & Em); [|rewrite Em in L1; done].
  destruct (list3 (sf_smax F0) ltac:(lia)) as (n0 & n1 & n2 & [|? ?] & En); [|rewrite En in L2; done].
  assert (Hu : used F Aqua = Some true ∧ pos F Aqua = Some 0%nat ∧ ∃ c, pu = PhaseUsage c [1; 1; if g then 1 else 0]%nat [0; 1; 2]%nat).
  { destruct (phases_cases _ _ _ HP) as [(_ & -> & E)|[(_ & -> & E)|(? & _)]]; [| |done]; unfold used, pos; rewrite E; (split; [done|]; split; [done|]; eexists; exact E). }
  destruct Hu as (Hu & Hp & c & Epu). rewrite Hu. cbn [mbind option_bind].
  destruct (init_water_ok F swof k sw krw krow pcow 0 G Hk Hp) as (F' & -> & Hc & E1 & E2 & E3 & E4 & E5 & E6); [cbn; rewrite Em; cbn; lia|cbn; rewrite En; cbn; lia|]. cbn [mbind option_bind].
  assert (E1' : sf_pu F' = PhaseUsage c [1; 1; if g then 1 else 0]%nat [0; 1; 2]%nat) by (rewrite E1; exact Epu).
  assert (Hug : used F' Vapour = Some g) by (unfold used; rewrite E1'; by destruct g). rewrite Hug. cbn [mbind option_bind].
  cbn in E2, E3. rewrite Em in E2. rewrite En in E3. cbn in E2, E3. destruct g.
  - destruct (Hg eq_refl) as (Ht & Ho & Hn & Hend). assert (Hv : ∀ j, (j < length sg)%nat → sg !! j = Some (val sg j)). { intros j Hj. unfold val. destruct (lookup_lt_is_Some_2 sg j) as [v Hv]; [lia|]. by rewrite Hv. }
    unfold init_gas. rewrite Ht. cbn [mbind option_bind lookup list_lookup]. unfold mk_nonuniform. rewrite !nt_make_ordered by done. cbn [mbind option_bind]. rewrite (Hv 0%nat) by lia. cbn [mbind option_bind].
    assert (pos F' Vapour = Some 2%nat) as -> by (unfold pos; by rewrite E1'). cbn [mbind option_bind]. rewrite E2, E3. rewrite upd_Some by (cbn; lia). cbn [mbind option_bind].
    rewrite last_lookup. replace (pred (length sg)) with (length sg - 1)%nat by lia. rewrite (Hv (length sg - 1)%nat) by lia. cbn [mbind option_bind]. destruct (Rlt_dec _ _); [lra|]. rewrite upd_Some by (cbn; lia). cbn [mbind option_bind].
    match goal with |- context [pos ?H Liquid] => assert (pos H Liquid = Some 1%nat) as -> by (unfold pos; cbn [sf_pu]; by rewrite E1') end. cbn [mbind option_bind sf_smin sf_smax]. rewrite !upd_Some by (cbn; lia). cbn [mbind option_bind].
    eexists. split; [done|]. split; [apply HPu; cbn; by rewrite E1|]. split; [destruct Hc; by split|]. done.
  - cbn [mbind option_bind].
    assert (pos F' Liquid = Some 1%nat) as -> by (unfold pos; by rewrite E1'). cbn [mbind option_bind]. rewrite E2, E3. rewrite !upd_Some by (cbn; lia). cbn [mbind option_bind].
    eexists. split; [done|]. split; [apply HPu; cbn; by rewrite E1|]. split; [destruct Hc; by split|]. done.
Qed.
(** The other two classes leave the critical saturations and their values as they
    were. *)
Theorem C63_init_others mk m F0 F swof sgof k pu : m ≠ Simple → sat_init mk m F0 swof sgof k pu = Some F →
  sf_swcr F = sf_swcr F0 ∧ sf_sowcr F = sf_sowcr F0 ∧ sf_krwr F = sf_krwr F0 ∧ sf_krorw F = sf_krorw F0 ∧ sf_krwmax F = sf_krwmax F0 ∧ sf_kromax F = sf_kromax F0.
Proof.
  intros Hm. unfold sat_init. cbv zeta. set (F1 := SatFunc _ _ _ _ _ _ _ _ pu _ _ _ _ _ _ _).
  assert (H1 : sf_swcr F1 = sf_swcr F0 ∧ sf_sowcr F1 = sf_sowcr F0 ∧ sf_krwr F1 = sf_krwr F0 ∧ sf_krorw F1 = sf_krorw F0 ∧ sf_krwmax F1 = sf_krwmax F0 ∧ sf_kromax F1 = sf_kromax F0) by done.
  revert H1. generalize F1. clear F1. intros F1 H1 E. apply bind_Some in E as (ua & _ & E). apply bind_Some in E as ([[F2 swco] swmax] & E2 & E).
  assert (H2 : sf_swcr F2 = sf_swcr F0 ∧ sf_sowcr F2 = sf_sowcr F0 ∧ sf_krwr F2 = sf_krwr F0 ∧ sf_krorw F2 = sf_krorw F0 ∧ sf_krwmax F2 = sf_krwmax F0 ∧ sf_kromax F2 = sf_kromax F0).
  { destruct ua; [|injection E2 as <- _ _; done]. unfold init_water in E2. repeat (apply bind_Some in E2 as (? & _ & E2)). destruct m; [done| |]; injection E2 as <- _ _; done. }
  clear E2 H1. apply bind_Some in E as (ug & _ & E). apply bind_Some in E as (F3 & E3 & E).
  assert (H3 : sf_swcr F3 = sf_swcr F0 ∧ sf_sowcr F3 = sf_sowcr F0 ∧ sf_krwr F3 = sf_krwr F0 ∧ sf_krorw F3 = sf_krorw F0 ∧ sf_krwmax F3 = sf_krwmax F0 ∧ sf_kromax F3 = sf_kromax F0).
  { destruct ug; [|injection E3 as <-; done]. unfold init_gas in E3. repeat (apply bind_Some in E3 as (? & _ & E3)). destruct (Rlt_dec _ _); [done|]. repeat (apply bind_Some in E3 as (? & _ & E3)). injection E3 as <-; done. }
  clear E3 H2. repeat (apply bind_Some in E as (? & _ & E)). injection E as <-. done.
Qed.

(** ** Uniform tables from samples of the monotone interpolant *)
Lemma ut_mono t xmin xmax y s x z : ut_built t xmin xmax y → weakly s y → x <= z → s * tab (of_utable t) x <= s * tab (of_utable t) z.
Proof.
  intros B [Hs W] Hxz. unfold tab. cbn. pose proof (ut_built_ok _ _ _ _ B) as O. pose proof O as (_ & _ & _ & Hn & Hx & _). pose proof (delta_pos xmin xmax (length y) Hn Hx) as Hd.
  assert (In : ∀ x z, xmin <= x → x <= z → z <= xmax → s * default 0 (ut_eval t x) <= s * default 0 (ut_eval t z)).
  { clear x z Hxz. intros x z H1 H2 H3. destruct (cell_of t xmin xmax y O x ltac:(lra)) as (i & Hi & Ci). destruct (cell_of t xmin xmax y O z ltac:(lra)) as (j & Hj & Cj).
    destruct (lookup_lt_is_Some_2 y i ltac:(lia)) as [a Ea]. destruct (lookup_lt_is_Some_2 y (S i) ltac:(lia)) as [b Eb]. destruct (lookup_lt_is_Some_2 y j ltac:(lia)) as [c Ec]. destruct (lookup_lt_is_Some_2 y (S j) ltac:(lia)) as [d Ed].
    pose proof (W i (S i) a b ltac:(lia) Ea Eb) as Wab. pose proof (W j (S j) c d ltac:(lia) Ec Ed) as Wcd.
    assert (U : ∀ u, node xmin xmax (length y) i <= u <= node xmin xmax (length y) (S i) → 0 <= (u - node xmin xmax (length y) i) / (node xmin xmax (length y) (S i) - node xmin xmax (length y) i) <= 1).
    { intros u Hu. rewrite node_S in Hu |- *. generalize dependent (node xmin xmax (length y) i). clear -Hd. intros q _ _ Hu || intros q. intros. set (D := (xmax - xmin) / INR (length y - 1)) in *. replace (q + D - q) with D by lra. split; [apply Rmult_le_pos; [lra|left; by apply Rinv_0_lt_compat]|]. apply Rmult_le_reg_r with D; [done|]. unfold Rdiv. rewrite Rmult_assoc, Rinv_l; lra. }
    assert (V : ∀ u, node xmin xmax (length y) j <= u <= node xmin xmax (length y) (S j) → 0 <= (u - node xmin xmax (length y) j) / (node xmin xmax (length y) (S j) - node xmin xmax (length y) j) <= 1).
    { intros u Hu. rewrite node_S in Hu |- *. set (q := node xmin xmax (length y) j) in *. clearbody q. clear -Hd Hu. set (D := (xmax - xmin) / INR (length y - 1)) in *. replace (q + D - q) with D by lra. split; [apply Rmult_le_pos; [lra|left; by apply Rinv_0_lt_compat]|]. apply Rmult_le_reg_r with D; [done|]. unfold Rdiv. rewrite Rmult_assoc, Rinv_l; lra. }
    destruct (lt_eq_lt_dec i j) as [[Hij| ->]|Hij].
    - rewrite (C27_interpolant t xmin xmax y B x i a b Ea Eb Ci), (C27_interpolant t xmin xmax y B z j c d Ec Ed Cj). cbn [default from_option Datatypes.id].
      pose proof (U x Ci) as Hux. pose proof (V z Cj) as Huz. set (wx := (x - _) / _) in *. set (wz := (z - _) / _) in *. pose proof (W (S i) j b c ltac:(lia) Eb Ec) as Wbc.
      apply Rle_trans with (s * b); [|apply Rle_trans with (s * c); [done|]]; clear -Hux Huz Wab Wcd; nra.
    - assert (c = a) as -> by congruence. assert (d = b) as -> by congruence.
      rewrite (C27_interpolant t xmin xmax y B x j a b Ea Eb Ci), (C27_interpolant t xmin xmax y B z j a b Ec Ed Cj). cbn [default from_option Datatypes.id].
      assert ((x - node xmin xmax (length y) j) / (node xmin xmax (length y) (S j) - node xmin xmax (length y) j) <= (z - node xmin xmax (length y) j) / (node xmin xmax (length y) (S j) - node xmin xmax (length y) j)) as Hw.
      { apply Rmult_le_compat_r; [|lra]. left. apply Rinv_0_lt_compat. rewrite node_S. lra. }
      set (wx := (x - _) / _) in *. set (wz := (z - _) / _) in *. clear -Hw Wab. nra.
    - pose proof (node_le xmin xmax (length y) (S j) i Hn Hx ltac:(lia)). assert (x = z) as -> by lra. lra. }
  assert (Cl : ∀ u, ∃ u', ut_eval t u = ut_eval t u' ∧ xmin <= u' <= xmax ∧ (u <= xmin → u' = xmin) ∧ (xmax <= u → u' = xmax) ∧ (xmin <= u <= xmax → u' = u)).
  { intros u. destruct (Rle_or_lt u xmin); [|destruct (Rle_or_lt xmax u)].
    - exists xmin. rewrite (proj1 (C27_outside t xmin xmax y B u)), (proj1 (C27_outside t xmin xmax y B xmin)) by lra. repeat split; intros; lra.
    - exists xmax. rewrite (proj2 (C27_outside t xmin xmax y B u)), (proj2 (C27_outside t xmin xmax y B xmax)) by lra. repeat split; intros; lra.
    - exists u. repeat split; intros; lra. }
  destruct (Cl x) as (x' & -> & ? & X1 & X2 & X3). destruct (Cl z) as (z' & -> & ? & Z1 & Z2 & Z3). apply In; try lra.
Qed.
Lemma mset_in m k v p : p ∈ mset m k v → p = (k, v) ∨ p ∈ m.
Proof.
  induction m as [|q m IH]; cbn; [intros H; apply elem_of_list_singleton in H; by left|]. destruct (Rlt_dec k q.1); [intros H; apply elem_of_cons in H as [->|H]; [by left|by right]|].
  destruct (Req_EM_T k q.1); intros H; apply elem_of_cons in H as [->|H]; [by left|right; by right|right; by left|]. destruct (IH H) as [->|?]; [by left|right; by right].
Qed.
Lemma set_all_in xs : ∀ fs m p, p ∈ set_all xs fs m → p ∈ m ∨ ∃ i, xs !! i = Some p.1 ∧ fs !! i = Some p.2.
Proof.
  induction xs as [|x xs IH]; intros [|f fs] m p; cbn; try (by left). intros H. destruct (IH _ _ _ H) as [H'|(i & ? & ?)]; [|right; by exists (S i)].
  apply mset_in in H' as [->|?]; [right; by exists 0%nat|by left].
Qed.
Theorem C63_build junk xv yv samples : ordered 1 xv → (2 ≤ length xv)%nat → length yv = length xv → (2 ≤ samples)%nat →
  ∃ t s, build_uniform junk xv yv samples = Some t ∧
    (∀ i x f, xv !! i = Some x → yv !! i = Some f → evaluate s x = Some f) ∧
    (∀ i x, (i < samples)%nat → x = val xv 0 + INR i / (INR samples - 1) * (val xv (length xv - 1) - val xv 0) → ut_eval t x = evaluate s x) ∧
    defined (of_utable t) ∧
    (∀ x, x <= val xv 0 → tab (of_utable t) x = val yv 0) ∧ (∀ x, val xv (length xv - 1) <= x → tab (of_utable t) x = val yv (length xv - 1)) ∧
    ∀ r x z, weakly r yv → x <= z → r * tab (of_utable t) x <= r * tab (of_utable t) z.
Proof.
  intros Ho Hn HL Hs. set (n := length xv) in *.
  assert (Hv : ∀ l j, length l = n → (j < n)%nat → l !! j = Some (val l j)). { intros l j El Hj. unfold val. destruct (lookup_lt_is_Some_2 l j) as [v Hv]; [lia|]. by rewrite Hv. }
  assert (Hd : NoDup xv). { apply NoDup_alt. intros i j x Hi Hj. destruct (lt_eq_lt_dec i j) as [[H| ->]|H]; [|done|]; [pose proof (proj2 Ho i j x x H Hi Hj)|pose proof (proj2 Ho j i x x H Hj Hi)]; lra. }
  destruct (C30_new junk xv yv ltac:(lia) Hd) as (s & E & Hev). pose proof (new_data _ _ _ _ E) as [Hdata _].
  assert (Hr : reachable anyf s) by exact (r_new anyf junk xv yv s E). 
  assert (Hne : data s ≠ []). { intros H0. pose proof (set_all_has xv yv [] 0%nat _ _ ltac:(by intros [|?]) Hd (Hv xv 0%nat eq_refl ltac:(lia)) (Hv yv 0%nat HL ltac:(lia))) as Hg. rewrite <- Hdata, H0 in Hg. done. }
  set (xmin := val xv 0). set (xmax := val xv (n - 1)). assert (Hx : xmin < xmax). { pose proof (proj2 Ho 0%nat (n - 1)%nat _ _ ltac:(lia) (Hv xv 0%nat eq_refl ltac:(lia)) (Hv xv (n - 1)%nat eq_refl ltac:(lia))). unfold xmin, xmax. lra. }
  assert (H1 : 0 < INR samples - 1). { assert (2 <= INR samples); [|lra]. replace 2 with (INR 2) by (cbn; lra). by apply le_INR. }
  unfold build_uniform. rewrite E. cbn [mbind option_bind]. rewrite (Hv xv 0%nat eq_refl ltac:(lia)). cbn [mbind option_bind]. rewrite last_lookup. fold n. replace (pred n) with (n - 1)%nat by lia. rewrite (Hv xv (n - 1)%nat eq_refl ltac:(lia)). cbn [mbind option_bind]. fold xmin xmax.
  set (pt := λ i : nat, xmin + INR i / (INR samples - 1) * (xmax - xmin)).
  set (ev := λ x, default 0 (evaluate s x)). assert (Hevs : ∀ x, evaluate s x = Some (ev x)). { intros x. destruct (C30_total s x Hr Hne) as [v Hx']. unfold ev. by rewrite Hx'. }
  assert (EM : mapM (λ i : nat, w ← rdiv (INR i) (INR samples - 1); evaluate s ((1 - w) * xmin + w * xmax)) (seq 0 samples) = Some ((λ i, ev (pt i)) <$> seq 0 samples)).
  { apply mapM_Some. apply Forall2_fmap_r. apply Forall_Forall2_diag. apply Forall_forall. intros i _. rewrite rdiv_Some by lra. cbn [mbind option_bind]. rewrite Hevs. do 2 f_equal. unfold pt. lra. }
  rewrite EM. cbn [mbind option_bind]. set (ys := (λ i, ev (pt i)) <$> seq 0 samples). assert (Ly : length ys = samples) by (unfold ys; by rewrite fmap_length, seq_length).
  assert (Yi : ∀ i, (i < samples)%nat → ys !! i = Some (ev (pt i))). { intros i Hi. unfold ys. rewrite list_lookup_fmap, lookup_seq_lt by done. done. }
  destruct (C27_constructor xmin xmax ys Hx ltac:(lia)) as [t Et]. rewrite Et. pose proof (ub_make _ _ _ _ Et) as B.
  assert (Hpt : ∀ i, node xmin xmax samples i = pt i). { intros i. unfold node, pt. rewrite minus_INR by lia. change (INR 1) with 1. field. lra. }
  assert (P0 : pt 0%nat = xmin) by (unfold pt, Rdiv; cbn [INR]; lra). assert (P1 : pt (samples - 1)%nat = xmax). { unfold pt. rewrite minus_INR by lia. change (INR 1) with 1. field. lra. }
  exists t, s. split; [done|]. split; [done|]. split_and!.
  - intros i x Hi Ex. fold (pt i) in Ex. rewrite Ex, <- Hpt, <- Ly. rewrite (C27_nodes t xmin xmax ys B i _ (Yi i Hi)). rewrite Ly, Hpt. symmetry. apply Hevs.
  - intros x. destruct (C27_between t xmin xmax ys B x) as (v & _ & _ & _ & Ev & _). cbn. by rewrite Ev.
  - intros x Hlt. unfold tab. cbn. rewrite (proj1 (C27_outside t xmin xmax ys B x) Hlt), head_lookup, (Yi 0%nat) by lia. rewrite P0. cbn. unfold ev, xmin. by rewrite (Hev 0%nat _ _ (Hv xv 0%nat eq_refl ltac:(lia)) (Hv yv 0%nat HL ltac:(lia))).
  - intros x Hlt. unfold tab. cbn. rewrite (proj2 (C27_outside t xmin xmax ys B x) Hlt), last_lookup, Ly. replace (pred samples) with (samples - 1)%nat by lia. rewrite (Yi (samples - 1)%nat) by lia. rewrite P1. cbn. unfold ev, xmax. by rewrite (Hev (n - 1)%nat _ _ (Hv xv (n - 1)%nat eq_refl ltac:(lia)) (Hv yv (n - 1)%nat HL ltac:(lia))).
  - intros r x z Wr Hxz. apply (ut_mono t xmin xmax ys); [done| |done]. destruct Wr as [Hr1 Wr]. split; [done|]. intros i j a b Hij Ha Hb.
    apply lookup_lt_Some in Ha as Hia. apply lookup_lt_Some in Hb as Hjb. rewrite Ly in Hia, Hjb. rewrite Yi in Ha, Hb by lia. injection Ha as <-. injection Hb as <-.
    assert (Hle : pt i <= pt j). { unfold pt. apply Rplus_le_compat_l. apply Rmult_le_compat_r; [lra|]. apply Rmult_le_compat_r; [left; by apply Rinv_0_lt_compat|]. by apply le_INR. }
    assert (Hdp : ∀ p q, p ∈ data s → q ∈ data s → p.1 < q.1 → r * p.2 <= r * q.2).
    { intros p q Hp Hq Hpq. rewrite Hdata in Hp, Hq. apply set_all_in in Hp as [Hp|(i1 & Hp1 & Hp2)]; [by apply elem_of_nil in Hp|]. apply set_all_in in Hq as [Hq|(i2 & Hq1 & Hq2)]; [by apply elem_of_nil in Hq|].
      apply (Wr i1 i2); [|done|done]. destruct (le_lt_dec i1 i2) as [?|Hlt]; [done|]. pose proof (proj2 Ho i2 i1 _ _ Hlt Hq1 Hp1). lra. }
    destruct (C30_monotone s (pt i) (pt j) _ _ Hr Hne Hle (Hevs _) (Hevs _)) as [M1 M2]. destruct Hr1 as [-> | ->].
    + assert (ev (pt i) <= ev (pt j)); [|lra]. apply M1. intros p q Hp Hq Hpq. pose proof (Hdp p q Hp Hq Hpq). lra.
    + assert (ev (pt j) <= ev (pt i)); [|lra]. apply M2. intros p q Hp Hq Hpq. pose proof (Hdp p q Hp Hq Hpq). lra.
Qed.
Print Assumptions C63_init.
Print Assumptions C63_init_others.
Print Assumptions C63_build.
