(** C55, C56: implicit two-phase transport
    (opm/core/transport/reorder/TransportSolverTwophaseReorder.cpp). *)
From Coq Require Import Reals Lra Psatz.
From stdpp Require Import relations.
From Verif Require Import Base CsrSpec CsrProof GridModel GridSpec DfsProps TarjanProof ReorderModel ReorderProof ReorderProps
  TofModel TofSpec TofProof TofProps AccProof TableModel RootModel RootProps TwoModel TwoSpec TwoProof TwoMulti.
Unset Default Proof Using.
Local Open Scope R_scope.

(** A transport problem. *)
Record transport_ok (g : ugrid) (cf : list (list nat)) (flux pv src : list R) (dt : R)
    (kr : nat → R → R → R * R) (visc_w visc_o tol : R) : Prop := {
  t_grid : grid_ok g cf;
  t_cells : (0 < u_nc g)%nat;
  t_flux : length flux = u_nf g;
  t_pv : length pv = u_nc g;
  t_src : length src = u_nc g;
  t_pos : ∀ c p, pv !! c = Some p → 0 < p;
  t_dt : 0 <= dt;
  t_tol : 0 <= tol;
  t_fluid : fluid_ok kr visc_w visc_o }.

(** ** C55: one cell *)
(** In every cell water is immobile at saturation 0 and oil at 1, so the equation
    of the cell has the right signs at both ends, whether or not the fluxes are
    balanced. *)
Theorem C55_bracket g cf flux pv src dt kr visc_w visc_o tol c r p q val s0 :
  transport_ok g cf flux pv src dt kr visc_w visc_o tol →
  cf !! c = Some r → pv !! c = Some p → src !! c = Some q → 0 <= s0 <= 1 →
  (∀ u, flows r_pos r_neg g flux u c → 0 <= val u <= 1) →
  imbalance g flux dt p q r c val (fraction kr visc_w visc_o c) s0 0 <= 0 ∧
  0 <= imbalance g flux dt p q r c val (fraction kr visc_w visc_o c) s0 1.
Proof.
  intros [Hg _ Hf _ _ Hp Hdt _ HF] Hr Hpv Hq Hs0 Hval. eapply imbalance_ends; try done. by eapply Hp.
Qed.
Print Assumptions C55_bracket.

(** solveSingleCell: a saturation between 0 and 1 that settles the equation of the
    cell, and its fractional flow; nothing else is read than the saturation of
    the cell and the fractional flows upstream. *)
Theorem C55_cell g cf flux pv src dt kr visc_w visc_o tol maxit c r p q x s0 ff it :
  transport_ok g cf flux pv src dt kr visc_w visc_o tol →
  cf !! c = Some r → pv !! c = Some p → src !! c = Some q →
  length x = u_nc g → x !! c = Some (s0, ff, it) → 0 <= s0 <= 1 →
  (∀ u, flows r_pos r_neg g flux u c → ∃ v, x !! u = Some v ∧ 0 <= v.1.2 <= 1) →
  ∃ s n, two_single g flux pv src dt kr visc_w visc_o tol maxit c x
           = Some (<[c:=(s, fraction kr visc_w visc_o c s, (it + n)%Z)]> x) ∧
    0 <= s <= 1 ∧ 0 <= fraction kr visc_w visc_o c s <= 1 ∧
    settled tol maxit
      (imbalance g flux dt p q r c (λ u, default 0 ((λ v : R * R * Z, v.1.2) <$> x !! u)) (fraction kr visc_w visc_o c) s0) 0 1 s0 s.
Proof.
  intros [Hg _ Hf _ _ Hp Hdt Ht HF] Hr Hpv Hq Hx Hc Hs0 Hval.
  destruct (two_cell_ok g cf flux pv src dt kr visc_w visc_o tol maxit Hg Hf c r x s0 ff it q p) as (s & n & E & Hs & _ & Hset); try done.
  { by eapply Hp. } { intros u Hu. destruct (Hval u Hu) as (v & Ev & Hv). unfold ffv. by rewrite Ev. }
  exists s, n. unfold two_single. rewrite E. cbn [mbind option_bind].
  rewrite upd_Some by (by eapply lookup_lt_Some). split; [done|]. split; [done|]. split; [|done]. by apply fraction_bounds.
Qed.
Print Assumptions C55_cell.

(** With balanced fluxes and a fractional flow that does not decrease, the equation
    has at most one solution, and the error in the saturation is at most the
    remaining imbalance. *)
Theorem C55_error g cf flux pv src dt kr visc_w visc_o tol c r p q val s0 s t :
  transport_ok g cf flux pv src dt kr visc_w visc_o tol →
  cf !! c = Some r → pv !! c = Some p → src !! c = Some q →
  gain g flux q r c = 0 →
  (∀ a b, 0 <= a <= b → b <= 1 → fraction kr visc_w visc_o c a <= fraction kr visc_w visc_o c b) →
  0 <= s <= 1 → 0 <= t <= 1 →
  let e := imbalance g flux dt p q r c val (fraction kr visc_w visc_o c) s0 in
  e t = 0 → Rabs (s - t) <= Rabs (e s).
Proof.
  intros HT Hr Hpv Hq Hgain Hmono Hs Ht e He. destruct HT as [Hg _ Hf _ _ Hp Hdt _ HF].
  set (F := fraction kr visc_w visc_o c) in *.
  assert (Hinc : ∀ a b, 0 <= a <= b → b <= 1 → b - a <= e b - e a).
  { intros a b Ha Hb. unfold e, imbalance. rewrite Hgain. fold F. specialize (Hmono a b Ha Hb). specialize (Hp c p Hpv).
    assert (Hdp : 0 <= dt / p). { unfold Rdiv. assert (0 < / p) by (by apply Rinv_0_lt_compat). clear - Hdt H. nra. }
    assert (A : inner_sum g (λ f, if Rlt_dec (out g flux c f) 0 then out g flux c f * carried g flux val f else out g flux c f * F a) r
             <= inner_sum g (λ f, if Rlt_dec (out g flux c f) 0 then out g flux c f * carried g flux val f else out g flux c f * F b) r).
    { unfold inner_sum. apply rsum_le. intros f _. destruct (inner g f); [|lra]. destruct (Rlt_dec _ 0) as [Ho|Ho]; [lra|]. clear - Ho Hmono. nra. }
    pose proof (Rmax_r (- q) 0) as B. revert A.
    generalize (inner_sum g (λ f, if Rlt_dec (out g flux c f) 0 then out g flux c f * carried g flux val f else out g flux c f * F a) r).
    generalize (inner_sum g (λ f, if Rlt_dec (out g flux c f) 0 then out g flux c f * carried g flux val f else out g flux c f * F b) r).
    intros X Y A. assert (0 <= Rmax (- q) 0 * F b - Rmax (- q) 0 * F a) by (clear - B Hmono; nra). clear - A H Hdp. nra. }
  destruct (Rle_dec s t) as [H|H].
  - pose proof (Hinc s t ltac:(lra) ltac:(lra)). rewrite Rabs_left1 by lra. rewrite (Rabs_left1 (e s)) by lra. lra.
  - pose proof (Hinc t s ltac:(lra) ltac:(lra)). rewrite Rabs_right by lra. rewrite (Rabs_right (e s)) by lra. lra.
Qed.
Print Assumptions C55_error.

Lemma in_concat_iff {A} (ls : list (list A)) c : c ∈ concat ls ↔ ∃ C, c ∈ C ∧ C ∈ ls.
Proof.
  induction ls as [|D l IH]; simpl.
  - split; [intros H; by apply elem_of_nil in H|]. intros (C & _ & H). by apply elem_of_nil in H.
  - rewrite elem_of_app, IH. split.
    + intros [H|(C & H1 & H2)]; [exists D; split; [done|by left]|exists C; split; [done|by right]].
    + intros (C & H1 & H2). apply elem_of_cons in H2 as [->|H2]; [by left|right; by exists C].
Qed.

(** ** C56: the whole step *)
Section step.
Context (g : ugrid) (cf : list (list nat)) (flux pv src : list R) (dt : R).
Context (kr : nat → R → R → R * R) (visc_w visc_o tol : R) (maxit : Z).
Context (HT : transport_ok g cf flux pv src dt kr visc_w visc_o tol).
Notation flows := (flows r_pos r_neg g flux).
Notation F := (fraction kr visc_w visc_o).
Notation nc := (u_nc g).
Notation solves := (solves g cf flux pv src dt kr visc_w visc_o tol maxit).
Notation good := (good kr visc_w visc_o).

(** What holds of a cell at the end. *)
Definition cell_done (x : list cellval) (c : nat) (s0 : R) : Prop :=
  ∃ s it, x !! c = Some (s, F c s, it) ∧ 0 <= s <= 1 ∧ (0 ≤ it)%Z ∧
  ∃ snap, (∀ u, flows u c → 0 <= snap u <= 1 ∧ Rabs (snap u - satv x u) <= 300 / 10 ^ 9 ∧
                           (¬ rtc flows c u → snap u = satv x u)) ∧
          solves c snap s0 s.

Lemma multi_ok ia ja rows C x :
  reads ia ja rows → length rows = nc → (∀ u v, edge rows u v ↔ flows u v) →
  (∀ c, c ∈ C → (c < nc)%nat) → NoDup C → length x = nc →
  (∀ c w, c ∈ C → w ∈ C → rtc flows c w) →
  (∀ u c, c ∈ C → flows u c → u ∉ C → good x u) →
  (∀ c, c ∈ C → ∃ s ff it, x !! c = Some (s, ff, it) ∧ 0 <= s <= 1 ∧ (0 ≤ it)%Z) →
  ∃ res, two_multi g flux pv src dt kr visc_w visc_o tol maxit ia ja C x = Some res ∧
    ∀ x', res = Some x' → length x' = nc ∧ (∀ u, u ∉ C → x' !! u = x !! u) ∧ ∀ c, c ∈ C → cell_done x' c (satv x c).
Proof using HT.
  intros Hreads Hrows Hedge HC Hnd Hx Hscc Hout Hin. destruct HT as [Hg Hnc Hf Hpv Hsrc Hp Hdt Ht HF]. clear HT.
  unfold two_multi.
  destruct (positions_ok nc 0 C (replicate nc None)) as (pos & Ep & Hposl & Hpos1 & Hpos2); [by rewrite replicate_length|done|done|].
  rewrite Ep. cbn [mbind option_bind].
  destruct (init_ok g kr visc_w visc_o HF C HC C x) as (x1 & E1 & Hl1 & Hg1 & Hs1); try done.
  rewrite E1. cbn [mbind option_bind].
  assert (Hpos2' : ∀ c ci, c ∉ C → pos !! c ≠ Some (Some ci)).
  { intros c ci Hc. rewrite Hpos2 by done. intros H. apply lookup_replicate in H as [? _]. done. }
  destruct (rounds_ok g cf flux pv src dt kr visc_w visc_o tol maxit Hg Hf Hpv Hsrc Hp Hdt Ht HF ia ja rows Hreads Hrows Hedge C HC Hnd
    x Hout Hin Hx pos Hposl Hpos1 Hpos2' 299 0 (replicate (length C) true) x1) as (res & E & Hres).
  { split.
    - apply replicate_length.
    - done.
    - done.
    - intros c Hc. by apply Hg1.
    - intros j c Hj Hfalse. apply lookup_replicate in Hfalse as [? _]. done. }
  exists res. split; [done|]. intros x' Hr. destruct (Hres x' Hr) as (k & needs & Hk & [_ Hl Ho Hgd Heq] & Hall).
  split; [done|]. split; [done|]. intros c Hc. apply elem_of_list_lookup in Hc as [j Hj].
  destruct (Heq j c Hj) as (snap & Hsn & Hso). { apply Hall. by eapply lookup_lt_Some. }
  destruct (Hgd c) as (s & it & Ec & Hs & Hit); [by eapply elem_of_list_lookup_2|].
  exists s, it. split; [done|]. split; [done|]. split; [done|]. exists snap. split.
  - intros u Hu. destruct (Hsn u Hu) as (H1 & H2 & H3). split; [done|].
    destruct (decide (u ∈ C)) as [HuC|HuC].
    + split.
      * apply elem_of_list_lookup in HuC as [m Hm]. eapply Rle_trans; [by apply (H3 m)|].
        unfold rbound. rewrite decide_False by lia. unfold tol9. unfold Rdiv. apply Rmult_le_compat_r.
        -- apply Rlt_le, tol9_pos.
        -- apply Rle_trans with (INR 300); [apply le_INR; lia|]. simpl. lra.
      * intros H. destruct H. apply Hscc; [by eapply elem_of_list_lookup_2|done].
    + rewrite H2 by done. split; [|done]. rewrite Rminus_eq_0, Rabs_R0. unfold Rdiv. apply Rmult_le_pos; [lra|apply Rlt_le, tol9_pos].
  - unfold satv at 2 in Hso. rewrite Ec in Hso. exact Hso.
Qed.

Lemma cell_done_stable x y c s0 : x !! c = y !! c → (∀ u, flows u c → x !! u = y !! u) → cell_done x c s0 → cell_done y c s0.
Proof.
  intros Hc Hu (s & it & E & Hs & Hit & snap & Hsn & Hso). exists s, it. rewrite <- Hc. do 3 (split; [done|]).
  exists snap. split; [|done]. intros u Hf. specialize (Hsn u Hf). unfold satv in *. by rewrite <- (Hu u Hf).
Qed.

Theorem transport_final ia0 ja0 x0 :
  length ia0 = S nc → length ja0 = u_nf g → length x0 = nc →
  (∀ v, v ∈ x0 → 0 <= v.1.1 <= 1 ∧ v.2 = 0%Z) →
  ∃ m res, (∀ fuel, (m ≤ fuel)%nat →
      two_transport g flux pv src dt kr visc_w visc_o tol maxit fuel ia0 ja0 x0 = Some res) ∧
    (∀ x, res = Some x → length x = nc ∧ ∀ c, (c < nc)%nat → cell_done x c (satv x0 c)) ∧
    ((∀ u v, rtc flows u v → rtc flows v u → u = v) → res ≠ None).
Proof using HT.
  intros Hia Hja Hx0 Hrange. pose proof HT as [Hg Hnc Hf Hpv Hsrc Hp Hdt Ht HF].
  destruct sign_laws_real as (L1 & L2 & L3).
  destruct (make_upwind_graph_ok r_pos r_neg Ropp L1 L2 L3 g cf (map Ropp flux) Hg ltac:(by rewrite map_length) ia0 ja0
    (replicate (u_nf g `max` (3 * nc)) 0%nat) Hia Hja ltac:(by rewrite replicate_length)) as (ia & ja & rows & E & Hrows & Hreads & Hedge).
  assert (Hedge' : ∀ u v, edge rows u v ↔ flows u v).
  { intros u v. rewrite Hedge. unfold ReorderProps.flows, flows_via. split.
    - intros (f & z & Hz & H). apply list_lookup_fmap_inv in Hz as (z' & -> & Hz'). rewrite L1, L2 in H. exists f, z'. split; [done|tauto].
    - intros (f & z & Hz & H). exists f, (- z). rewrite L1, L2. split; [by rewrite list_lookup_fmap, Hz|tauto]. }
  set (single := λ c, lift (two_single g flux pv src dt kr visc_w visc_o tol maxit c)).
  set (multi := λ (cs : list nat) (x : option (list cellval)), match x with None => Some None
                | Some x => two_multi g flux pv src dt kr visc_w visc_o tol maxit ia ja cs x end).
  destruct (C16_components r_pos r_neg Ropp single multi g cf flux) as (m & comps & Hrun & Hperm & Hne & Hscc & Hord); try done.
  (* the loop over the components *)
  assert (Hlt : ∀ i C c, comps !! i = Some C → c ∈ C → (c < nc)%nat).
  { intros i C c Hi Hc. assert (c ∈ concat comps) as Hin.
    { apply in_concat_iff. exists C. split; [done|by eapply elem_of_list_lookup_2]. }
    rewrite Hperm in Hin. apply elem_of_seq in Hin. lia. }
  assert (HndAll : NoDup (concat comps)) by (rewrite Hperm; apply NoDup_seq).
  assert (Huniq : ∀ i j Ci Cj c, comps !! i = Some Ci → comps !! j = Some Cj → c ∈ Ci → c ∈ Cj → i = j).
  { clear - HndAll. revert HndAll. induction comps as [|D l IH]; intros HN i j Ci Cj c Hi Hj Hci Hcj; [done|].
    simpl in HN. apply NoDup_app in HN as (H1 & H2 & H3).
    destruct i as [|i], j as [|j]; simpl in Hi, Hj; simplify_eq; [done| | |f_equal; by eapply IH].
    - destruct (H2 c Hci). apply in_concat_iff. exists Cj. split; [done|by eapply elem_of_list_lookup_2].
    - destruct (H2 c Hcj). apply in_concat_iff. exists Ci. split; [done|by eapply elem_of_list_lookup_2]. }
  assert (HndC : ∀ C, C ∈ comps → NoDup C).
  { clear - HndAll. revert HndAll. induction comps as [|D l IH]; intros HN C HC; [by apply elem_of_nil in HC|].
    simpl in HN. apply NoDup_app in HN as (H1 & _ & H3). apply elem_of_cons in HC as [->|HC]; [done|by apply IH]. }
  assert (Hex : ∀ c, (c < nc)%nat → ∃ i C, comps !! i = Some C ∧ c ∈ C).
  { intros c Hc. assert (c ∈ concat comps) as Hin by (rewrite Hperm; apply elem_of_seq; lia).
    apply in_concat_iff in Hin as (C & Hc' & HC). apply elem_of_list_lookup in HC as [i Hi]. eauto. }
  assert (G : ∀ n k x, (k + n = length comps)%nat → length x = nc →
    (∀ i C c, (i < k)%nat → comps !! i = Some C → c ∈ C → cell_done x c (satv x0 c)) →
    (∀ i C c, (k <= i)%nat → comps !! i = Some C → c ∈ C → x !! c = x0 !! c) →
    ∃ res, calls single multi (drop k comps) (Some x) = Some res ∧
      (∀ x, res = Some x → length x = nc ∧ ∀ c, (c < nc)%nat → cell_done x c (satv x0 c)) ∧
      ((∀ u v, rtc flows u v → rtc flows v u → u = v) → res ≠ None)).
  { induction n as [|n IH]; intros k x Hk Hlx Hdone Htodo.
    { rewrite drop_ge by lia. cbn [calls]. exists (Some x). split; [done|]. split; [|done].
      intros x' [= <-]. split; [done|]. intros c Hc. destruct (Hex c Hc) as (i & C & Hi & HcC).
      eapply (Hdone i C c); try done. apply lookup_lt_Some in Hi. lia. }
    destruct (lookup_lt_is_Some_2 comps k) as [C HCk]; [lia|]. rewrite (drop_S _ _ _ HCk). cbn [calls].
    assert (HCin : C ∈ comps) by (by eapply elem_of_list_lookup_2).
    (* what the component may rely on *)
    assert (Hstart : ∀ c, c ∈ C → ∃ s ff it, x !! c = Some (s, ff, it) ∧ 0 <= s <= 1 ∧ (0 ≤ it)%Z ∧ satv x0 c = s ∧ it = 0%Z).
    { intros c Hc. rewrite (Htodo k C c) by (done || lia).
      destruct (lookup_lt_is_Some_2 x0 c) as [[[s ff] it] Ex]; [rewrite Hx0; by eapply Hlt|].
      destruct (Hrange (s, ff, it)) as [Hs Hit]; [by eapply elem_of_list_lookup_2|]. simpl in Hit. subst it.
      exists s, ff, 0%Z. split_and!; [done|apply Hs|apply Hs|done| |done]. unfold satv. by rewrite Ex. }
    assert (Hupg : ∀ u c, c ∈ C → flows u c → u ∉ C → good x u).
    { intros u c Hc Hu HuC. destruct (flows_lt g cf flux Hg _ _ Hu) as [Hun _]. destruct (Hex u Hun) as (i & Ci & Hi & Hui).
      assert (i ≤ k)%nat by (by eapply (Hord i k Ci C u c)).
      assert (i ≠ k). { intros ->. rewrite HCk in Hi. injection Hi as <-. done. }
      destruct (Hdone i Ci u ltac:(lia) Hi Hui) as (s & it & Eu & Hs & Hit & _). by exists s, it. }
    (* what is left for the remaining components *)
    assert (Hnext : ∀ x', length x' = nc → (∀ u, u ∉ C → x' !! u = x !! u) → (∀ c, c ∈ C → cell_done x' c (satv x0 c)) →
      ∃ res, calls single multi (drop (S k) comps) (Some x') = Some res ∧
      (∀ x, res = Some x → length x = nc ∧ ∀ c, (c < nc)%nat → cell_done x c (satv x0 c)) ∧
      ((∀ u v, rtc flows u v → rtc flows v u → u = v) → res ≠ None)).
    { intros x' Hl' Hsame Hnew. apply IH; [lia|done| |].
      - intros i D c Hi HD Hc. destruct (decide (i = k)) as [->|Hik].
        { rewrite HCk in HD. injection HD as <-. by apply Hnew. }
        assert (HcC : c ∉ C). { intros H. apply Hik. by eapply (Huniq i k D C c). }
        apply (cell_done_stable x); [by rewrite Hsame| |eapply (Hdone i D c); try done; lia].
        intros u Hu. rewrite Hsame; [done|]. intros HuC. pose proof (Hord k i C D u c HCk HD HuC Hc Hu). lia.
      - intros i D c Hi HD Hc. rewrite Hsame; [apply (Htodo i D c); try done; lia|].
        intros H. pose proof (Huniq i k D C c HD HCk Hc H). lia. }
    destruct C as [|c [|c' C']]; [by destruct (Hne [] HCin)| |].
    - (* a single cell *)
      destruct (Hstart c ltac:(by left)) as (s0 & ff & it & Ex & Hs0 & Hit & Es0 & ->).
      destruct (single_ok g cf flux pv src dt kr visc_w visc_o tol maxit Hg Hf Hpv Hsrc Hp Hdt Ht HF c x s0 ff 0%Z) as (s & n' & E1 & Hs & Hn' & Hsolve); try done.
      { eapply Hlt; [done|by left]. }
      { intros u Hu. apply (Hupg u c); [by left|done|]. intros Hin. apply elem_of_list_singleton in Hin as ->. by apply (flows_irr g cf flux Hg) in Hu. }
      replace (single c (Some x)) with (Some (Some (<[c:=(s, F c s, (0 + n')%Z)]> x))) by (unfold single, lift; by rewrite E1).
      cbn [mbind option_bind].
      apply Hnext.
      + by rewrite insert_length.
      + intros u Hu. rewrite list_lookup_insert_ne; [done|]. intros ->. apply Hu. by left.
      + intros d Hd. apply elem_of_list_singleton in Hd as ->. exists s, (0 + n')%Z.
        split; [apply list_lookup_insert; rewrite Hlx; eapply Hlt; [done|by left]|]. split; [done|]. split; [lia|].
        exists (satv x). rewrite Es0. split; [|exact Hsolve]. intros u Hu.
        assert (u ≠ c) by (intros ->; by apply (flows_irr g cf flux Hg) in Hu).
        assert (Eu : satv (<[c:=(s, F c s, (0 + n')%Z)]> x) u = satv x u) by (unfold satv; by rewrite list_lookup_insert_ne).
        rewrite Eu. destruct (good_sat kr visc_w visc_o x u) as [Hb _].
        { apply (Hupg u c); [by left|done|]. by rewrite elem_of_list_singleton. }
        split; [done|]. split; [|done]. rewrite Rminus_eq_0, Rabs_R0. unfold Rdiv. apply Rmult_le_pos; [lra|apply Rlt_le, tol9_pos].
    - (* a cycle *)
      set (C := c :: c' :: C') in *. cbv zeta.
      destruct (multi_ok ia ja rows C x) as (res & Er & Hres); try done.
      { intros d Hd. by eapply Hlt. } { by apply HndC. }
      { intros d w Hd Hw. by apply (Hscc C d HCin Hd w) in Hw as [? _]. }
      { intros d Hd. destruct (Hstart d Hd) as (s & ff & it & Ex & Hs & Hit & _). by exists s, ff, it. }
      replace (multi C (Some x)) with (Some res) by (unfold multi; by rewrite Er). cbn [mbind option_bind].
      destruct res as [x'|].
      + destruct (Hres x' eq_refl) as (Hl' & Hsame & Hnew). apply Hnext; [done|done|].
        intros d Hd. specialize (Hnew d Hd). replace (satv x0 d) with (satv x d); [done|].
        destruct (Hstart d Hd) as (s & ff & it & Ex & _ & _ & Es & _). rewrite Es. unfold satv. by rewrite Ex.
      + exists None. split; [|split; [done|]].
        * clear. generalize (drop (S k) comps). intros l. induction l as [|D l IH]; [done|]. cbn [calls].
          destruct D as [|d [|d' D]]; cbn [single multi lift mbind option_bind]; exact IH.
        * intros Hac. exfalso. assert (c ∈ C ∧ c' ∈ C) as [Hc Hc'] by (split; unfold C; [by left|right; by left]).
          apply (Hscc C c HCin Hc) in Hc' as [H1 H2]. specialize (Hac c c' H1 H2). subst c'.
          specialize (HndC C HCin). unfold C in HndC. apply NoDup_cons in HndC as [H _]. apply H. by left. }
  destruct (G (length comps) 0%nat x0) as (res & Er & Hres); [lia|done|lia|done|].
  exists m, res. split; [|exact Hres]. intros fuel Hfuel. unfold two_transport. rewrite E. cbn [mbind option_bind].
  rewrite <- Er, drop_0. apply (Hrun fuel (Some x0) Hfuel).
Qed.
End step.

Lemma to_water_length l n : length l = (2 * n)%nat → length (to_water_sat l) = n.
Proof.
  revert l. induction n as [|n IH]; intros l Hl; [by destruct l|]. destruct l as [|a [|b l]]; simpl in Hl; [lia|lia|].
  simpl. f_equal. apply IH. lia.
Qed.
Lemma to_water_lookup l n c : length l = (2 * n)%nat → to_water_sat l !! c = l !! (2 * c)%nat.
Proof.
  revert l c. induction n as [|n IH]; intros l c Hl; [destruct l; [by rewrite !lookup_nil|done]|].
  destruct l as [|a [|b l]]; simpl in Hl; [lia|lia|].
  destruct c as [|c]; [done|]. replace (2 * S c)%nat with (S (S (2 * c))) by lia. simpl. apply IH. lia.
Qed.
Lemma to_both_length l : length (to_both_sat l) = (2 * length l)%nat.
Proof. induction l as [|a l IH]; [done|]. cbn [to_both_sat length]. rewrite IH. lia. Qed.
Lemma to_both_lookup l c s : l !! c = Some s → to_both_sat l !! (2 * c)%nat = Some s ∧ to_both_sat l !! (2 * c + 1)%nat = Some (1 - s).
Proof.
  revert c. induction l as [|a l IH]; intros c Hc; [done|]. destruct c as [|c]; [injection Hc as ->; done|].
  replace (2 * S c)%nat with (S (S (2 * c))) by lia. cbn [to_both_sat]. simpl plus. by apply IH.
Qed.

(** Whatever the fluxes, also with circulation: the step fails only by the
    exception of solveMultiCell, never by an undefined operation or a failed
    assertion, and not at all without circulation. Otherwise the two saturations
    of each cell add up to 1, lie between 0 and 1, and settle the equation of the
    cell for the final saturations of the cells upstream; of those on a common
    cycle with the cell, for saturations that differ from the final ones by at
    most 3e-7. *)
Theorem C56_step g cf flux pv src dt kr visc_w visc_o tol maxit ia0 ja0 ff0 sat :
  transport_ok g cf flux pv src dt kr visc_w visc_o tol →
  length ia0 = S (u_nc g) → length ja0 = u_nf g → length ff0 = u_nc g → length sat = (2 * u_nc g)%nat →
  (∀ c s, sat !! (2 * c)%nat = Some s → 0 <= s <= 1) →
  ∃ m res, (∀ fuel, (m ≤ fuel)%nat →
      two_solve g flux pv src dt kr visc_w visc_o tol maxit fuel ia0 ja0 ff0 sat = Some res) ∧
    ((∀ u v, rtc (flows r_pos r_neg g flux) u v → rtc (flows r_pos r_neg g flux) v u → u = v) → res ≠ None) ∧
    ∀ sat' x, res = Some (sat', x) → length sat' = (2 * u_nc g)%nat ∧
      ∀ c r p q s0, cf !! c = Some r → pv !! c = Some p → src !! c = Some q → sat !! (2 * c)%nat = Some s0 →
        ∃ s it snap, sat' !! (2 * c)%nat = Some s ∧ sat' !! (2 * c + 1)%nat = Some (1 - s) ∧ 0 <= s <= 1 ∧
          x !! c = Some (s, fraction kr visc_w visc_o c s, it) ∧
          (∀ u, flows r_pos r_neg g flux u c → ∃ su, sat' !! (2 * u)%nat = Some su ∧ 0 <= snap u <= 1 ∧
             Rabs (snap u - su) <= 300 / 10 ^ 9 ∧ (¬ rtc (flows r_pos r_neg g flux) c u → snap u = su)) ∧
          settled tol maxit
            (imbalance g flux dt p q r c (λ u, fraction kr visc_w visc_o u (snap u)) (fraction kr visc_w visc_o c) s0) 0 1 s0 s.
Proof.
  intros HT Hia Hja Hff Hsat Hrange.
  set (x0 := zip_with (λ s ff, (s, ff, 0%Z)) (to_water_sat sat) ff0).
  pose proof (to_water_length sat _ Hsat) as Hw.
  assert (Hx0 : length x0 = u_nc g) by (unfold x0; rewrite zip_with_length; lia).
  destruct (transport_final g cf flux pv src dt kr visc_w visc_o tol maxit HT ia0 ja0 x0 Hia Hja Hx0) as (m & res & Hrun & Hres & Hac).
  { intros v Hv. apply elem_of_list_lookup in Hv as [c Hc]. unfold x0 in Hc. apply lookup_zip_with_Some in Hc as (s & ff & -> & Hs & _).
    cbn [fst snd]. rewrite (to_water_lookup _ _ _ Hsat) in Hs. split; [by eapply Hrange|done]. }
  exists m, (match res with None => None | Some x => Some (to_both_sat (map (λ v : R * R * Z, v.1.1) x), x) end).
  split. { intros fuel Hfuel. unfold two_solve. fold x0. rewrite (Hrun fuel Hfuel). done. }
  split. { intros H. specialize (Hac H). by destruct res. }
  intros sat' x Hx. destruct res as [x'|]; [|done]. injection Hx as <- <-.
  destruct (Hres x' eq_refl) as [Hl Hdone]. split. { rewrite to_both_length, map_length, Hl. done. }
  intros c r p q s0 Hr Hp Hq Hs0.
  assert (Hc : (c < u_nc g)%nat). { rewrite <- (ok_cells _ _ (t_grid _ _ _ _ _ _ _ _ _ _ HT)). by eapply lookup_lt_Some. }
  destruct (Hdone c Hc) as (s & it & Ec & Hs & Hit & snap & Hsn & Hso).
  assert (L : ∀ u v, x' !! u = Some v → to_both_sat (map (λ v : R * R * Z, v.1.1) x') !! (2 * u)%nat = Some v.1.1 ∧
                                       to_both_sat (map (λ v : R * R * Z, v.1.1) x') !! (2 * u + 1)%nat = Some (1 - v.1.1)).
  { intros u v Hv. apply to_both_lookup. by rewrite list_lookup_fmap, Hv. }
  destruct (L c _ Ec) as [L1 L2]. exists s, it, snap. split; [done|]. split; [done|]. split; [done|]. split; [done|]. split.
  - intros u Hu. destruct (flows_lt g cf flux (t_grid _ _ _ _ _ _ _ _ _ _ HT) _ _ Hu) as [Hun _].
    destruct (lookup_lt_is_Some_2 x' u) as [v Hv]; [by rewrite Hl|]. exists v.1.1. destruct (L u v Hv) as [-> _].
    split; [done|]. specialize (Hsn u Hu). unfold satv in Hsn. by rewrite Hv in Hsn.
  - assert (E0 : satv x0 c = s0).
    { unfold satv, x0. rewrite lookup_zip_with. rewrite (to_water_lookup _ _ _ Hsat), Hs0. cbn [mbind option_bind].
      destruct (lookup_lt_is_Some_2 ff0 c) as [ff ->]; [by rewrite Hff|]. done. }
    rewrite E0 in Hso. by apply Hso.
Qed.
Print Assumptions C56_step.

(** What flows between the cells neither appears nor disappears. *)
Lemma rsum_row (h : nat → R) r n : NoDup r → (∀ f, f ∈ r → (f < n)%nat) → rsum h r = rsum (λ f, if decide (f ∈ r) then h f else 0) (seq 0 n).
Proof.
  intros Hn Hr. rewrite <- rsum_filter. apply rsum_perm. apply NoDup_Permutation; [done|apply NoDup_filter, NoDup_seq|].
  intros f. rewrite elem_of_list_filter, elem_of_seq. split; [|tauto]. intros Hf. split; [done|]. specialize (Hr f Hf). lia.
Qed.
Lemma exchange g cf flux (k : nat → R) : grid_ok g cf →
  rsum (λ c, inner_sum g (λ f, out g flux c f * k f) (default [] (cf !! c))) (seq 0 (u_nc g)) = 0.
Proof.
  intros Hg.
  assert (Hlt : ∀ c r f, cf !! c = Some r → f ∈ r → (f < u_nf g)%nat).
  { intros c r f Hr Hf. apply (ok_inc _ _ Hg c r f Hr) in Hf as (a & b & [Ha Hb] & _).
    apply lookup_lt_Some in Hb. rewrite (ok_faces _ _ Hg) in Hb. lia. }
  rewrite (rsum_ext _ (λ c, rsum (λ f, if decide (f ∈ default [] (cf !! c)) then (if inner g f then out g flux c f * k f else 0) else 0) (seq 0 (u_nf g)))).
  2:{ intros c Hc. apply elem_of_seq in Hc. destruct (lookup_lt_is_Some_2 cf c) as [r Hr]; [rewrite (ok_cells _ _ Hg); lia|].
      rewrite Hr. cbn [default from_option id]. unfold inner_sum. apply rsum_row; [by eapply ok_nodup|]. intros f. by eapply Hlt. }
  rewrite rsum_swap. apply rsum_zero. intros f Hf. apply elem_of_seq in Hf.
  destruct (inner g f) eqn:Ei.
  2:{ apply rsum_zero. intros c _. by destruct (decide _). }
  unfold inner in Ei. destruct (u_facecells g !! (2 * f)%nat) as [a|] eqn:Ea; [|done].
  destruct (u_facecells g !! (2 * f + 1)%nat) as [b|] eqn:Eb; [|done]. apply bool_decide_eq_true in Ei as [Ha Hb].
  destruct (ok_range _ _ Hg f a b) as (Ra & Rb & Rab); [done|].
  rewrite (rsum_two (λ c, f ∈ default [] (cf !! c)) (λ c, out g flux c f * k f) _ (Z.to_nat a) (Z.to_nat b)).
  - unfold out. rewrite Ea. destruct (flux !! f) as [d|]; [|lra]. rewrite decide_True by lia. rewrite decide_False by lia. lra.
  - apply NoDup_seq.
  - intros H. apply Ha, Rab. lia.
  - intros c. split.
    + intros [Hc H]. destruct (cf !! c) as [r|] eqn:Hr; cbn [default from_option id] in H; [|by apply elem_of_nil in H].
      apply (ok_inc _ _ Hg c r f Hr) in H as (a' & b' & [Ha' Hb'] & H). rewrite Ea in Ha'. rewrite Eb in Hb'. simplify_eq.
      destruct H as [H|H]; [left|right]; lia.
    + intros H. assert (c < u_nc g)%nat by lia. split; [apply elem_of_seq; lia|].
      destruct (lookup_lt_is_Some_2 cf c) as [r Hr]; [rewrite (ok_cells _ _ Hg); lia|]. rewrite Hr. cbn [default from_option id].
      apply (ok_inc _ _ Hg c r f Hr). exists a, b. split; [done|]. destruct H; [left|right]; lia.
Qed.

(** The mass balance of the field for any saturations [w], with the imbalances
    [e] of the cells as its error. *)
Theorem C56_mass g cf flux pv src dt kr visc_w visc_o tol (w0 w e : nat → R) :
  transport_ok g cf flux pv src dt kr visc_w visc_o tol →
  let F := fraction kr visc_w visc_o in
  let p c := default 0 (pv !! c) in let q c := default 0 (src !! c) in let fs c := default [] (cf !! c) in
  (∀ c, (c < u_nc g)%nat → e c = imbalance g flux dt (p c) (q c) (fs c) c (λ u, F u (w u)) (F c) (w0 c) (w c)) →
  rsum (λ c, p c * (w c - w0 c)) (seq 0 (u_nc g)) =
    dt * rsum (λ c, Rmax (q c) 0) (seq 0 (u_nc g))
    - dt * rsum (λ c, Rmax (- q c) 0 * F c (w c)) (seq 0 (u_nc g))
    - dt * rsum (λ c, w c * gain g flux (q c) (fs c) c) (seq 0 (u_nc g))
    + rsum (λ c, p c * e c) (seq 0 (u_nc g)).
Proof.
  intros HT F p q fs He. pose proof HT as [Hg _ Hf Hpv Hsrc Hp Hdt _ _].
  set (X := λ c, inner_sum g (λ f, out g flux c f * carried g flux (λ u, F u (w u)) f) (fs c)).
  assert (E : ∀ c, c ∈ seq 0 (u_nc g) → p c * (w c - w0 c) =
     dt * Rmax (q c) 0 + (-dt) * (Rmax (- q c) 0 * F c (w c)) + (-dt) * (w c * gain g flux (q c) (fs c) c) + p c * e c + (-dt) * X c).
  { intros c Hc. apply elem_of_seq in Hc. rewrite (He c) by lia.
    destruct (lookup_lt_is_Some_2 pv c) as [pc Epc]; [rewrite Hpv; lia|]. assert (Hpp : p c = pc) by (unfold p; by rewrite Epc).
    destruct (lookup_lt_is_Some_2 cf c) as [r Hr]; [rewrite (ok_cells _ _ Hg); lia|]. assert (Hfs : fs c = r) by (unfold fs; by rewrite Hr).
    specialize (Hp c pc Epc). unfold imbalance.
    assert (HX : inner_sum g (λ f, if Rlt_dec (out g flux c f) 0 then out g flux c f * carried g flux (λ u, F u (w u)) f
        else out g flux c f * F c (w c)) (fs c) = X c).
    { unfold X, inner_sum. rewrite Hfs. apply rsum_ext. intros f Hfr. destruct (inner g f); [|done].
      destruct (Rlt_dec _ 0) as [Ho|Ho]; [done|].
      destruct (face_facts g cf flux Hg Hf c r f Hr Hfr) as (a & b & d & _ & _ & _ & _ & _ & Hup & _).
      destruct (Req_dec (out g flux c f) 0) as [->|Hne]; [lra|]. unfold carried. rewrite Hup by lra. rewrite decide_False by lia. by rewrite Nat2Z.id. }
    rewrite HX, Hpp. field. lra. }
  rewrite (rsum_ext _ _ _ E). rewrite !rsum_plus, !rsum_scale.
  replace (rsum X (seq 0 (u_nc g))) with 0 by (symmetry; by apply exchange). lra.
Qed.
Print Assumptions C56_mass.

(** So without circulation the step loses or gains water only by what is left in
    the equations of the cells. *)
Theorem C56_conservation g cf flux pv src dt kr visc_w visc_o tol maxit ia0 ja0 ff0 sat :
  transport_ok g cf flux pv src dt kr visc_w visc_o tol →
  length ia0 = S (u_nc g) → length ja0 = u_nf g → length ff0 = u_nc g → length sat = (2 * u_nc g)%nat →
  (∀ c s, sat !! (2 * c)%nat = Some s → 0 <= s <= 1) →
  (∀ u v, rtc (flows r_pos r_neg g flux) u v → rtc (flows r_pos r_neg g flux) v u → u = v) →
  let F := fraction kr visc_w visc_o in
  let p c := default 0 (pv !! c) in let q c := default 0 (src !! c) in let fs c := default [] (cf !! c) in
  ∃ m sat' x e, (∀ fuel, (m ≤ fuel)%nat →
      two_solve g flux pv src dt kr visc_w visc_o tol maxit fuel ia0 ja0 ff0 sat = Some (Some (sat', x))) ∧
    let w0 c := default 0 (sat !! (2 * c)%nat) in let w c := default 0 (sat' !! (2 * c)%nat) in
    (∀ c, (c < u_nc g)%nat →
      let eq := imbalance g flux dt (p c) (q c) (fs c) c (λ u, F u (w u)) (F c) (w0 c) in
      e c = eq (w c) ∧ settled tol maxit eq 0 1 (w0 c) (w c)) ∧
    rsum (λ c, p c * (w c - w0 c)) (seq 0 (u_nc g)) =
      dt * rsum (λ c, Rmax (q c) 0) (seq 0 (u_nc g))
      - dt * rsum (λ c, Rmax (- q c) 0 * F c (w c)) (seq 0 (u_nc g))
      - dt * rsum (λ c, w c * gain g flux (q c) (fs c) c) (seq 0 (u_nc g))
      + rsum (λ c, p c * e c) (seq 0 (u_nc g)).
Proof.
  intros HT Hia Hja Hff Hsat Hrange Hac F p q fs.
  destruct (C56_step g cf flux pv src dt kr visc_w visc_o tol maxit ia0 ja0 ff0 sat HT Hia Hja Hff Hsat Hrange) as (m & res & Hrun & Hne & Hres).
  destruct res as [[sat' x]|]; [|by destruct (Hne Hac)]. destruct (Hres sat' x eq_refl) as [Hl Hcell]. clear Hres Hne.
  set (w0 := λ c, default 0 (sat !! (2 * c)%nat)). set (w := λ c, default 0 (sat' !! (2 * c)%nat)).
  exists m, sat', x, (λ c, imbalance g flux dt (p c) (q c) (fs c) c (λ u, F u (w u)) (F c) (w0 c) (w c)).
  split; [done|]. cbv zeta. split.
  2:{ by eapply (C56_mass g cf flux pv src dt kr visc_w visc_o tol w0 w). }
  intros c Hc. pose proof HT as [Hg _ Hf Hpv Hsrc _ _ _ _].
  destruct (lookup_lt_is_Some_2 pv c) as [pc Ep]; [by rewrite Hpv|]. destruct (lookup_lt_is_Some_2 src c) as [qc Eq]; [by rewrite Hsrc|].
  destruct (lookup_lt_is_Some_2 cf c) as [r Er]; [by rewrite (ok_cells _ _ Hg)|].
  destruct (lookup_lt_is_Some_2 sat (2 * c)%nat) as [s0 Es]; [lia|].
  destruct (Hcell c r pc qc s0 Er Ep Eq Es) as (s & it & snap & E1 & _ & _ & _ & Hsn & Hset). split; [done|].
  unfold p, q, fs, w0. change (default 0 (sat' !! (2 * c)%nat)) with (w c). assert (Ew : w c = s) by (unfold w; by rewrite E1). rewrite Ew.
  rewrite Ep, Eq, Er, Es. cbn [default from_option id].
  eapply settled_ext; [|exact Hset]. intros t. eapply imbalance_ext; try done.
  intros u Hu. destruct (Hsn u Hu) as (su & Esu & _ & _ & Hx). unfold w. rewrite Esu. cbn [default from_option]. unfold id. f_equal. apply Hx.
  intros Hr. assert (c = u) as ->. { apply Hac; [done|]. by apply rtc_once. } by apply (flows_irr g cf flux Hg) in Hu.
Qed.
Print Assumptions C56_conservation.

(** ** Cases *)
(** Straight relative permeabilities. *)
Definition straight (c : nat) (s so : R) : R * R := (s, so).
Lemma straight_ok vw vo : 0 < vw → 0 < vo → fluid_ok straight vw vo.
Proof. intros. split; [done|done| | |]; intros; unfold straight; cbn [fst snd]; lra. Qed.
Example C55_example : transport_ok line line_cf [1;1] [5;6;7] [1;0;-1] 2 straight 1 5 (/ 1000).
Proof.
  split; try done; [apply line_ok|simpl; lia| |lra|lra|apply straight_ok; lra].
  intros c p Hc. destruct c as [|[|[|c]]]; simpl in Hc; simplify_eq; lra.
Qed.
(** The flow of that case has no circulation, the fluxes are balanced, and the
    fractional flow does not decrease. *)
Example C56_example : (∀ u v, rtc (flows r_pos r_neg line [1;1]) u v → rtc (flows r_pos r_neg line [1;1]) v u → u = v) ∧
  gain line [1;1] 1 [0]%nat 0 = 0 ∧ gain line [1;1] 0 [0;1]%nat 1 = 0 ∧ gain line [1;1] (-1) [1]%nat 2 = 0.
Proof.
  split.
  - assert (H : ∀ u v, rtc (flows r_pos r_neg line [1;1]) u v → (u ≤ v)%nat).
    { intros u v. induction 1 as [|a b c H _ IH]; [lia|]. apply line_flows in H; [lia|lra|lra]. }
    intros u v H1 H2. apply H in H1, H2. lia.
  - unfold gain, inner_sum. cbn [rsum]. change (inner line 0) with true. change (inner line 1) with true. cbv iota.
    rewrite out00, out10, out11, out21. repeat split; lra.
Qed.
Example C55_example_error a b : 0 <= a <= b → b <= 1 → fraction straight 1 5 0 a <= fraction straight 1 5 0 b.
Proof.
  intros Ha Hb. unfold fraction, straight. cbn [fst snd].
  assert (E : ∀ s, 0 <= s <= 1 → s / 1 / (s / 1 + (1 - s) / 5) = 5 * s / (4 * s + 1)) by (intros s Hs; field; lra).
  rewrite !E by lra. apply (Rmult_le_reg_r ((4 * a + 1) * (4 * b + 1))); [nra|].
  replace (5 * a / (4 * a + 1) * ((4 * a + 1) * (4 * b + 1))) with (5 * a * (4 * b + 1)) by (field; lra).
  replace (5 * b / (4 * b + 1) * ((4 * a + 1) * (4 * b + 1))) with (5 * b * (4 * a + 1)) by (field; lra). lra.
Qed.
(** Three cells in a ring, with circulation. *)
Definition ring_cf : list (list nat) := [[0;2];[0;1];[1;2]]%nat.
Definition ring : ugrid := UGrid 3 3 [0;2;4;6]%nat [0;2;0;1;1;2]%nat [0;1;1;2;2;0]%Z.
Lemma ring_ok : grid_ok ring ring_cf.
Proof.
  assert (Hf : ∀ f a b, face_between ring f a b → (f < 3)%nat).
  { intros f a b [_ H]. apply lookup_lt_Some in H. simpl in H. lia. }
  split.
  - done.
  - apply (starts_holds ring_cf).
  - done.
  - intros f a b H. pose proof (Hf _ _ _ H). destruct H as [H1 H2].
    do 3 (destruct f as [|f]; [vm_compute in H1, H2; simplify_eq; simpl; lia|]). lia.
  - intros i r Hi. do 3 (destruct i as [|i]; [simplify_eq/=; by apply (bool_decide_unpack _)|]). done.
  - intros i r f Hi. split.
    + intros H. do 3 (destruct i as [|i]; [simplify_eq/=;
        repeat (apply elem_of_cons in H as [->|H]; [eexists _, _; split; [split; done|simpl; lia]|]); by apply elem_of_nil in H|]). done.
    + intros (a & b & H & Hab). pose proof (Hf _ _ _ H). destruct H as [H1 H2].
      do 3 (destruct f as [|f]; [vm_compute in H1, H2; simplify_eq;
        do 3 (destruct i as [|i]; [simplify_eq/=; try lia; by apply (bool_decide_unpack _)|]); done|]). lia.
Qed.
Example C56_example_ring : transport_ok ring ring_cf [2;1;1] [5;6;7] [1;-1;0] 2 straight 1 5 (/ 1000) ∧
  rtc (flows r_pos r_neg ring [2;1;1]) 0%nat 1%nat ∧ rtc (flows r_pos r_neg ring [2;1;1]) 1%nat 0%nat.
Proof.
  split.
  - split; try done; [apply ring_ok|simpl; lia| |lra|lra|apply straight_ok; lra].
    intros c p Hc. destruct c as [|[|[|c]]]; simpl in Hc; simplify_eq; lra.
  - assert (H : ∀ f (u v : nat) x, [2;1;1] !! f = Some x → 0 < x → face_between ring f (Z.of_nat u) (Z.of_nat v) →
      flows r_pos r_neg ring [2;1;1] u v).
    { intros f u v x Hx Hp Hf. exists f, x. split; [done|]. left. split; [done|]. unfold r_pos. by destruct (Rlt_dec 0 x). }
    split; [apply rtc_once; by apply (H 0%nat _ _ 2); [|lra|]|].
    eapply rtc_l; [|apply rtc_once]; [by apply (H 1%nat 1%nat 2%nat 1); [|lra|]|by apply (H 2%nat 2%nat 0%nat 1); [|lra|]].
Qed.
