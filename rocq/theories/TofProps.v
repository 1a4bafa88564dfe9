(** C16 (time-of-flight) and C49 (tracers), opm/core/tof/TofReorder.cpp. *)
From Coq Require Import Reals Lra.
From stdpp Require Import relations.
From Verif Require Import Base CsrSpec CsrProof GridModel GridSpec ReorderModel ReorderProof ReorderProps TofModel TofSpec TofProof.
Local Open Scope R_scope.

(** A flow problem: fluxes, pore volumes and sources for a grid, without
    circulation and with some outflow from every cell. *)
Record problem (g : ugrid) (cf : list (list nat)) (flux pv src : list R) : Prop := {
  p_grid : grid_ok g cf;
  p_nonempty : (0 < u_nc g)%nat;
  p_flux : length flux = u_nf g;
  p_pv : length pv = u_nc g;
  p_src : length src = u_nc g;
  p_acyclic : ∀ u v, rtc (flows r_pos r_neg g flux) u v → rtc (flows r_pos r_neg g flux) v u → u = v;
  p_outflow : ∀ c fs s, cf !! c = Some fs → src !! c = Some s → outflow g flux s fs c ≠ 0 }.

(** Time-of-flight of cell [u] in a final state; tracer [tr] of cell [u]. *)
Notation tof_of := tofv.
Notation tracer_of := trv.

Lemma outflow_nonneg g flux s fs c : 0 <= outflow g flux s fs c.
Proof.
  unfold outflow. pose proof (Rmax_r (- s) 0).
  assert (0 <= rsum (λ f, Rmax (out g flux c f) 0) fs); [|lra].
  apply rsum_nonneg. intros f _. apply Rmax_r.
Qed.

Section final.
Context g cf flux pv src (HP : problem g cf flux pv src).
Notation flows := (flows r_pos r_neg g flux).

(** All the equations that hold at the end, for a start from any state. *)
Lemma final x0 : length x0 = u_nc g →
  ∃ m x, (∀ fuel, (m ≤ fuel)%nat → reorder_and_transport r_pos r_neg Ropp g flux (tof_single g flux pv src) (tof_multi g flux pv src) fuel x0 = Some x) ∧
    length x = u_nc g ∧
    ∀ c fs s p v0, cf !! c = Some fs → src !! c = Some s → pv !! c = Some p → x0 !! c = Some v0 →
      tof_of x c = (p + rsum (infl g flux (tof_of x) c) fs) / outflow g flux s fs c ∧
      (∀ nt, length v0.2 = nt → (∀ u w, flows u c → x !! u = Some w → length w.2 = nt) →
         (∀ w, x !! c = Some w → length w.2 = nt) ∧
         ∀ tr, tracer_of x tr c =
           if Rle_dec s 0 then (default 0 (v0.2 !! tr) - rsum (infl g flux (tracer_of x tr) c) fs) * (-1 / outflow g flux s fs c)
           else default 0 (v0.2 !! tr) - rsum (infl g flux (tracer_of x tr) c) fs).
Proof.
  intros Hl0. destruct HP.
  destruct (C16_general r_pos r_neg Ropp (tof_cell g flux pv src) g cf flux (tof_multi g flux pv src) x0)
    as (m & x & Hrun & Hl & Hsol); try done.
  { apply sign_laws_real. } { by eapply tof_reads_upwind. } { by eapply tof_never_fails. }
  exists m, x. split_and!; [exact Hrun|done|]. intros c fs s p v0 Hfs Hs Hp Hv0.
  destruct (Hsol c v0 Hv0) as (v & Hv & Hcell).
  assert (Hclt : (c < length x)%nat) by (by eapply lookup_lt_Some).
  destruct (tof_cell_ok g cf flux pv src p_grid0 p_flux0 p_pv0 p_src0 c fs s p (<[c:=v0]> x) v0 Hfs Hs Hp)
    as (t & own & E & Ht & Hown).
  { by rewrite insert_length. } { by apply list_lookup_insert. }
  rewrite Hcell in E. simplify_eq.
  assert (Hirr : ∀ u, flows u c → u ≠ c).
  { intros u (f & z & _ & H) ->. destruct H as [[H _]|[H _]]; apply (ok_range _ _ p_grid0) in H; lia. }
  assert (Hext : ∀ V W : nat → R, (∀ u, u ≠ c → V u = W u) → rsum (infl g flux V c) fs = rsum (infl g flux W c) fs).
  { intros V W HVW. apply rsum_ext. intros f Hf.
    destruct (face_facts g cf flux p_grid0 p_flux0 c fs f Hfs Hf) as (a & e & d & _ & _ & _ & _ & _ & _ & _ & Hfl & _).
    unfold infl, carried. destruct (Rlt_dec (out g flux c f) 0); [|done].
    destruct (decide (upstream g flux f = (-1)%Z)); [done|]. rewrite HVW; [done|]. auto. }
  split.
  - unfold tofv at 1. rewrite Hv. simpl. f_equal. f_equal. apply Hext. intros u Hu. unfold tofv.
    by rewrite list_lookup_insert_ne by done.
  - intros nt Hnt Hrows. destruct (Hown nt Hnt) as [L Htr].
    { intros u w Hu Hw. rewrite list_lookup_insert_ne in Hw by (intros ->; by destruct (Hirr _ Hu)). by eapply Hrows. }
    split; [intros w Hw; by simplify_eq|]. intros tr. unfold trv at 1. rewrite Hv. simpl. rewrite Htr.
    assert (Eq : rsum (infl g flux (trv (<[c:=v0]> x) tr) c) fs = rsum (infl g flux (trv x tr) c) fs).
    { apply Hext. intros u Hu. unfold trv. by rewrite list_lookup_insert_ne by done. }
    by rewrite Eq.
Qed.
End final.

(** Every cell satisfies the discrete time-of-flight equation: what the faces
    and the sink carry away equals the pore volume. *)
Theorem C16_tof g cf flux pv src :
  problem g cf flux pv src →
  ∃ m x, (∀ fuel, (m ≤ fuel)%nat → solve_tof g flux pv src fuel = Some x) ∧ length x = u_nc g ∧
    (∀ c fs s p, cf !! c = Some fs → src !! c = Some s → pv !! c = Some p →
       balance g flux (tof_of x) s p fs c) ∧
    ((∀ c p, pv !! c = Some p → 0 <= p) → ∀ c, (c < u_nc g)%nat → 0 <= tof_of x c).
Proof.
  intros HP. destruct (final g cf flux pv src HP (replicate (u_nc g) (0, []))) as (m & x & Hrun & Hl & Heq).
  { apply replicate_length. }
  assert (Htof : ∀ c fs s p, cf !! c = Some fs → src !! c = Some s → pv !! c = Some p →
     tof_of x c = (p + rsum (infl g flux (tof_of x) c) fs) / outflow g flux s fs c).
  { intros c fs s p Hfs Hs Hp. eapply Heq; try done. apply lookup_replicate_2.
    apply lookup_lt_Some in Hfs. by rewrite (ok_cells _ _ (p_grid _ _ _ _ _ HP)) in Hfs. }
  exists m, x. split_and!; [done|done| |].
  - intros c fs s p Hfs Hs Hp. unfold balance.
    rewrite (split_balance g cf flux (p_grid _ _ _ _ _ HP) (p_flux _ _ _ _ _ HP) _ _ _ Hfs).
    pose proof (p_outflow _ _ _ _ _ HP c fs s Hfs Hs) as Hout. specialize (Htof c fs s p Hfs Hs Hp).
    assert (Hmul : tof_of x c * outflow g flux s fs c = p + rsum (infl g flux (tof_of x) c) fs).
    { rewrite Htof. field. done. }
    unfold outflow in Hmul. lra.
  - intros Hpos. destruct HP.
    apply (upwind_induction r_pos r_neg Ropp g cf flux (λ c, 0 <= tof_of x c)); try done; [apply sign_laws_real|].
    intros c Hc IH.
    destruct (lookup_lt_is_Some_2 cf c) as [fs Hfs]; [by rewrite (ok_cells _ _ p_grid0)|].
    destruct (lookup_lt_is_Some_2 src c) as [s Hs]; [lia|]. destruct (lookup_lt_is_Some_2 pv c) as [p Hp]; [lia|].
    rewrite (Htof c fs s p) by done. specialize (Hpos c p Hp).
    assert (Hin : 0 <= rsum (infl g flux (tof_of x) c) fs).
    { eapply infl_nonneg; try done. intros u Hu. apply IH; [|done].
      destruct Hu as (f & z & _ & H). destruct H as [[H _]|[H _]]; apply (ok_range _ _ p_grid0) in H; lia. }
    pose proof (outflow_nonneg g flux s fs c). pose proof (p_outflow0 c fs s Hfs Hs).
    apply Rmult_le_pos; [lra|]. apply Rlt_le, Rinv_0_lt_compat. lra.
Qed.
Print Assumptions C16_tof.

(** ** Tracers *)
Lemma infl_sum g flux (V : nat → nat → R) c r l :
  rsum (λ tr, rsum (infl g flux (V tr) c) r) l = rsum (infl g flux (λ u, rsum (λ tr, V tr u) l) c) r.
Proof.
  rewrite rsum_swap. apply rsum_ext. intros f _. unfold infl, carried.
  destruct (Rlt_dec (out g flux c f) 0).
  - destruct (decide (upstream g flux f = (-1)%Z)).
    + induction l as [|t l IH]; simpl; lra.
    + induction l as [|t l IH]; simpl; lra.
  - induction l as [|t l IH]; simpl; lra.
Qed.
Lemma rsum_scale {A} (a : R) (h : A → R) l : rsum (λ f, a * h f) l = a * rsum h l.
Proof. induction l as [|f l IH]; simpl; [lra|]. rewrite IH. lra. Qed.

(** The start row of a cell. *)
Definition start_row (heads : list nat) (c : nat) : list R := map (λ h, if decide (h = c) then 1 else 0) heads.
Lemma start_row_sum heads c : NoDup heads →
  rsum (λ tr, default 0 (start_row heads c !! tr)) (seq 0 (length heads)) = if decide (c ∈ heads) then 1 else 0.
Proof.
  unfold start_row. 
  assert (Hshift : ∀ (h : nat → R) k n, rsum h (seq (S k) n) = rsum (λ i, h (S i)) (seq k n)).
  { intros h k n. revert k. induction n as [|n IH]; intros k; simpl; [lra|]. by rewrite IH. }
  induction heads as [|a l IH]; intros Hnd.
  { rewrite decide_False by (apply not_elem_of_nil). done. }
  apply NoDup_cons in Hnd as [Ha Hnd].
  destruct (decide (c ∈ a :: l)) as [Hin|Hin]; simpl; rewrite Hshift; simpl; rewrite IH by done;
    rewrite elem_of_cons in Hin.
  - destruct (decide (a = c)) as [->|Hne].
    + rewrite decide_False by done. lra.
    + rewrite decide_True; [lra|]. destruct Hin; congruence.
  - destruct (decide (a = c)) as [->|Hne]; [by destruct Hin; left|]. rewrite decide_False; [lra|]. tauto.
Qed.

Section tracers.
Context g cf flux pv src (HP : problem g cf flux pv src).
Notation flows := (flows r_pos r_neg g flux).
Notation heads := (tracer_heads g src).

Lemma heads_spec c s : src !! c = Some s → (c ∈ heads ↔ 0 < s).
Proof.
  intros Hs. unfold tracer_heads. rewrite elem_of_list_filter, Hs. simpl. unfold r_pos.
  assert ((c < u_nc g)%nat). { rewrite <- (p_src _ _ _ _ _ HP). by eapply lookup_lt_Some. }
  rewrite elem_of_seq. destruct (Rlt_dec 0 s); split; try done; [intros _; split; [done|lia]|by intros [? _]].
Qed.
Lemma heads_nodup : NoDup heads.
Proof. apply NoDup_filter, NoDup_seq. Qed.

(** All equations satisfied by the tracers at the end. *)
Lemma tracer_final :
  ∃ m x, (∀ fuel, (m ≤ fuel)%nat → solve_tof_tracer g flux pv src fuel = Some x) ∧ length x = u_nc g ∧
    (∀ c w, x !! c = Some w → length w.2 = length heads) ∧
    ∀ c fs s tr, cf !! c = Some fs → src !! c = Some s →
      tracer_of x tr c =
           if Rle_dec s 0 then (default 0 (start_row heads c !! tr) - rsum (infl g flux (tracer_of x tr) c) fs) * (-1 / outflow g flux s fs c)
           else default 0 (start_row heads c !! tr) - rsum (infl g flux (tracer_of x tr) c) fs.
Proof.
  destruct (final g cf flux pv src HP (map (λ c, (0, start_row heads c)) (seq 0 (u_nc g)))) as (m & x & Hrun & Hl & Heq).
  { by rewrite map_length, seq_length. }
  exists m, x. split; [exact Hrun|]. split; [done|].
  assert (Hx0 : ∀ c, (c < u_nc g)%nat → map (λ c, (0, start_row heads c)) (seq 0 (u_nc g)) !! c = Some (0, start_row heads c)).
  { intros c Hc. rewrite list_lookup_fmap. by rewrite (lookup_seq_lt 0 (u_nc g) c Hc). }
  pose proof (p_grid _ _ _ _ _ HP) as Hg. pose proof (p_src _ _ _ _ _ HP) as Hsrc. pose proof (p_pv _ _ _ _ _ HP) as Hpv.
  assert (Hrows : ∀ c, (c < u_nc g)%nat → ∀ w, x !! c = Some w → length w.2 = length heads).
  { apply (upwind_induction r_pos r_neg Ropp g cf flux (λ c, ∀ w, x !! c = Some w → length w.2 = length heads));
      [apply sign_laws_real|done|apply (p_flux _ _ _ _ _ HP)|apply (p_acyclic _ _ _ _ _ HP)|].
    intros c Hc IH.
    destruct (lookup_lt_is_Some_2 cf c) as [fs Hfs]; [by rewrite (ok_cells _ _ Hg)|].
    destruct (lookup_lt_is_Some_2 src c) as [s Hs]; [lia|]. destruct (lookup_lt_is_Some_2 pv c) as [p Hp]; [lia|].
    eapply (Heq c fs s p (0, start_row heads c)); [done|done|done|by apply Hx0| |].
    - simpl. unfold start_row. by rewrite map_length.
    - intros u w Hu Hw. eapply IH; [|done|done]. rewrite <- Hl. by eapply lookup_lt_Some. }
  split.
  - intros c w Hw. eapply Hrows; [|done]. rewrite <- Hl. by eapply lookup_lt_Some.
  - intros c fs s tr Hfs Hs. assert (Hc : (c < u_nc g)%nat) by (rewrite <- Hsrc; by eapply lookup_lt_Some).
    destruct (lookup_lt_is_Some_2 pv c) as [p Hp]; [lia|].
    eapply (Heq c fs s p (0, start_row heads c)); [done|done|done|by apply Hx0| |].
    + simpl. unfold start_row. by rewrite map_length.
    + intros u w Hu Hw. eapply Hrows; [|done]. rewrite <- Hl. by eapply lookup_lt_Some.
Qed.
End tracers.

(** Fluxes that are conserved for tracers: in a cell without injection what
    leaves has come from other cells (nothing enters from outside), and fluid
    is injected only into cells that no other cell flows into. *)
Definition tracer_conserving (g : ugrid) (cf : list (list nat)) (flux src : list R) : Prop :=
  ∀ c fs s, cf !! c = Some fs → src !! c = Some s →
    (s <= 0 → inflow_internal g flux fs c = outflow g flux s fs c) ∧
    (0 < s → ∀ u, ¬ flows r_pos r_neg g flux u c).

(** The tracers of every cell sum to one and lie between zero and one; in cells
    without injection every tracer is in balance; in the injection cell of a
    tracer it is one. *)
Theorem C49_tracers_sum_to_one g cf flux pv src :
  problem g cf flux pv src → tracer_conserving g cf flux src →
  ∃ m x, (∀ fuel, (m ≤ fuel)%nat → solve_tof_tracer g flux pv src fuel = Some x) ∧
    let nt := length (tracer_heads g src) in
    (∀ c w, x !! c = Some w → length w.2 = nt) ∧ length x = u_nc g ∧
    (∀ c, (c < u_nc g)%nat → rsum (λ tr, tracer_of x tr c) (seq 0 nt) = 1) ∧
    (∀ c tr, (c < u_nc g)%nat → 0 <= tracer_of x tr c) ∧
    (∀ tr h, tracer_heads g src !! tr = Some h → tracer_of x tr h = 1).
Proof.
  intros HP Hcons. destruct (tracer_final g cf flux pv src HP) as (m & x & Hrun & Hl & Hlen & Heq).
  exists m, x. split; [done|]. intros nt. split; [done|]. split; [done|].
  pose proof (p_grid _ _ _ _ _ HP) as Hg. pose proof (p_src _ _ _ _ _ HP) as Hsrc.
  pose proof (p_flux _ _ _ _ _ HP) as Hflux.
  assert (Hzero : ∀ V c fs s, cf !! c = Some fs → src !! c = Some s → 0 < s → rsum (infl g flux V c) fs = 0).
  { intros V c fs s Hfs Hs Hpos. destruct (Hcons c fs s Hfs Hs) as [_ Hno].
    assert (rsum (infl g flux V c) fs = rsum (λ _, 0 * 0) fs) as ->; [|rewrite rsum_scale; lra].
    apply rsum_ext. intros f Hf.
    destruct (face_facts g cf flux Hg Hflux c fs f Hfs Hf) as (a & e & d & _ & _ & _ & _ & _ & _ & _ & Hfl & _).
    unfold infl, carried. destruct (Rlt_dec (out g flux c f) 0) as [H|H]; [|lra].
    destruct (decide (upstream g flux f = (-1)%Z)) as [E|E]; [lra|]. by destruct (Hno Hpos _ (Hfl H E)). }
  assert (Hsrcc : ∀ c s tr, src !! c = Some s → 0 < s → tracer_of x tr c = default 0 (start_row (tracer_heads g src) c !! tr)).
  { intros c s tr Hs Hpos. assert (Hc : (c < u_nc g)%nat) by (rewrite <- Hsrc; by eapply lookup_lt_Some).
    destruct (lookup_lt_is_Some_2 cf c) as [fs Hfs]; [by rewrite (ok_cells _ _ Hg)|].
    rewrite (Heq c fs s tr Hfs Hs). destruct (Rle_dec s 0); [lra|]. rewrite (Hzero _ c fs s) by done. lra. }
  assert (Hns : ∀ c fs s tr, cf !! c = Some fs → src !! c = Some s → s <= 0 →
    tracer_of x tr c = (1 / outflow g flux s fs c) * rsum (infl g flux (tracer_of x tr) c) fs).
  { intros c fs s tr Hfs Hs Hle. rewrite (Heq c fs s tr Hfs Hs). destruct (Rle_dec s 0); [|done].
    assert (E : default 0 (start_row (tracer_heads g src) c !! tr) = 0).
    { unfold start_row. rewrite list_lookup_fmap. destruct (tracer_heads g src !! tr) as [h|] eqn:Hh; [|done]. simpl.
      destruct (decide (h = c)) as [->|]; [|done]. apply elem_of_list_lookup_2 in Hh.
      apply (heads_spec g cf flux pv src HP c s Hs) in Hh. lra. }
    rewrite E. pose proof (p_outflow _ _ _ _ _ HP c fs s Hfs Hs). field. done. }
  assert (Hall : ∀ c, (c < u_nc g)%nat → rsum (λ tr, tracer_of x tr c) (seq 0 nt) = 1 ∧ ∀ tr, 0 <= tracer_of x tr c).
  { apply (upwind_induction r_pos r_neg Ropp g cf flux (λ c, rsum (λ tr, tracer_of x tr c) (seq 0 nt) = 1 ∧ ∀ tr, 0 <= tracer_of x tr c));
      [apply sign_laws_real|done|done|apply (p_acyclic _ _ _ _ _ HP)|].
    intros c Hc IH.
    assert (IH' : ∀ u, flows r_pos r_neg g flux u c → rsum (λ tr, tracer_of x tr u) (seq 0 nt) = 1 ∧ ∀ tr, 0 <= tracer_of x tr u).
    { intros u Hu. apply IH; [|done]. destruct Hu as (f & z & _ & H). destruct H as [[H _]|[H _]]; apply (ok_range _ _ Hg) in H; lia. }
    destruct (lookup_lt_is_Some_2 cf c) as [fs Hfs]; [by rewrite (ok_cells _ _ Hg)|].
    destruct (lookup_lt_is_Some_2 src c) as [s Hs]; [lia|].
    pose proof (p_outflow _ _ _ _ _ HP c fs s Hfs Hs) as Hout. pose proof (outflow_nonneg g flux s fs c).
    destruct (Rle_dec s 0) as [Hle|Hgt].
    - destruct (Hcons c fs s Hfs Hs) as [Hc1 _]. split.
      + rewrite (rsum_ext _ (λ tr, (1 / outflow g flux s fs c) * rsum (infl g flux (tracer_of x tr) c) fs)).
        2:{ intros tr _. by apply Hns. }
        rewrite rsum_scale, infl_sum.
        rewrite (infl_scale g cf flux Hg Hflux _ c fs Hfs); [rewrite Hc1 by done; field; done|].
        intros u Hu. by apply IH'.
      + intros tr. rewrite (Hns c fs s tr Hfs Hs Hle). apply Rmult_le_pos.
        * apply Rmult_le_pos; [lra|]. apply Rlt_le, Rinv_0_lt_compat. lra.
        * eapply infl_nonneg; try done. intros u Hu. by apply IH'.
    - assert (Hpos : 0 < s) by lra. split.
      + rewrite (rsum_ext _ (λ tr, default 0 (start_row (tracer_heads g src) c !! tr))).
        2:{ intros tr _. by eapply Hsrcc. }
        unfold nt. rewrite start_row_sum by apply heads_nodup. rewrite decide_True; [done|].
        by apply (heads_spec g cf flux pv src HP c s Hs).
      + intros tr. rewrite (Hsrcc c s tr Hs Hpos). unfold start_row. rewrite list_lookup_fmap.
        destruct (tracer_heads g src !! tr) as [h|]; simpl; [|lra]. destruct (decide (h = c)); lra. }
  split_and!.
  - intros c Hc. by apply Hall.
  - intros c tr Hc. by apply Hall.
  - intros tr h Hh. pose proof (elem_of_list_lookup_2 _ _ _ Hh) as Hin.
    assert (Hhl : (h < length src)%nat).
    { unfold tracer_heads in Hin. apply elem_of_list_filter in Hin as [_ Hin]. apply elem_of_seq in Hin. lia. }
    destruct (lookup_lt_is_Some_2 src h Hhl) as [s Hs].
    rewrite (Hsrcc h s tr Hs); [|by apply (heads_spec g cf flux pv src HP h s Hs)].
    unfold start_row. rewrite list_lookup_fmap, Hh. simpl. by rewrite decide_True.
Qed.
Print Assumptions C49_tracers_sum_to_one.

(** ** Three cells in a line *)
Definition line_cf : list (list nat) := [[0];[0;1];[1]]%nat.
Definition line : ugrid := UGrid 3 2 [0;1;3;4]%nat [0;0;1;1]%nat [0;1;1;2]%Z.
Lemma line_ok : grid_ok line line_cf.
Proof.
  assert (Hf : ∀ f a b, face_between line f a b → (f < 2)%nat).
  { intros f a b [_ H]. apply lookup_lt_Some in H. simpl in H. lia. }
  split.
  - done.
  - apply (starts_holds line_cf).
  - done.
  - intros f a b H. pose proof (Hf _ _ _ H). destruct H as [H1 H2].
    do 2 (destruct f as [|f]; [vm_compute in H1, H2; simplify_eq; simpl; lia|]). lia.
  - intros i r Hi. do 3 (destruct i as [|i]; [simplify_eq/=; by apply (bool_decide_unpack _)|]). done.
  - intros i r f Hi. split.
    + intros H. do 3 (destruct i as [|i]; [simplify_eq/=;
        repeat (apply elem_of_cons in H as [->|H]; [eexists _, _; split; [split; done|simpl; lia]|]); by apply elem_of_nil in H|]). done.
    + intros (a & b & H & Hab). pose proof (Hf _ _ _ H). destruct H as [H1 H2].
      do 2 (destruct f as [|f]; [vm_compute in H1, H2; simplify_eq;
        do 3 (destruct i as [|i]; [simplify_eq/=; try lia; by apply (bool_decide_unpack _)|]); done|]). lia.
Qed.
Section line.
Context (q0 q1 s0 s1 s2 : R) (Hq0 : 0 < q0) (Hq1 : 0 < q1) (Hs2 : s2 < 0).
Notation flows := (flows r_pos r_neg line [q0;q1]).
Lemma line_flows u v : flows u v → v = S u.
Proof using Hq0 Hq1.
  intros (f & x & Hx & H). unfold r_pos, r_neg in H.
  do 2 (destruct f as [|f]; [cbn in Hx; injection Hx as <-;
    destruct H as [[[H1 H2] H]|[[H1 H2] H]]; cbn in H1, H2; injection H1 as H1; injection H2 as H2;
    [lia| destruct (Rlt_dec _ 0); [lra|done]]|]). done.
Qed.
Lemma out00 : out line [q0;q1] 0 0 = q0. Proof. done. Qed.
Lemma out10 : out line [q0;q1] 1 0 = - q0. Proof. done. Qed.
Lemma out11 : out line [q0;q1] 1 1 = q1. Proof. done. Qed.
Lemma out21 : out line [q0;q1] 2 1 = - q1. Proof. done. Qed.
Lemma up0 : upstream line [q0;q1] 0 = 0%Z.
Proof using Hq0. unfold upstream. simpl. by destruct (Rlt_dec 0 q0). Qed.
Lemma up1 : upstream line [q0;q1] 1 = 1%Z.
Proof using Hq1. unfold upstream. simpl. by destruct (Rlt_dec 0 q1). Qed.
Lemma line_problem pv : length pv = 3%nat → problem line line_cf [q0;q1] pv [s0;s1;s2].
Proof using Hq0 Hq1 Hs2. intros Hpv.
  split; try done; [apply line_ok|simpl; lia| |].
  - assert (G' : ∀ u v, rtc flows u v → (u ≤ v)%nat).
    { intros u v. induction 1 as [|a b c H _ IH]; [lia|]. apply line_flows in H. lia. }
    intros u v H1 H2. apply G' in H1. apply G' in H2. lia.
  - intros c fs s Hfs Hs. assert (M := Rmax_r). unfold outflow.
    destruct c as [|[|[|c]]]; [..|done]; cbn in Hfs, Hs; injection Hfs as <-; injection Hs as <-; cbn [rsum];
      rewrite ?out00, ?out10, ?out11, ?out21.
    + pose proof (M (- s0) 0). rewrite (Rmax_left q0) by lra. lra.
    + pose proof (M (- s1) 0). pose proof (M (- q0) 0). rewrite (Rmax_left q1) by lra. lra.
    + pose proof (M (- q1) 0). rewrite (Rmax_left (- s2)) by lra. lra.
Qed.
Lemma line_flux : inflow_internal line [q0;q1] [0]%nat 0 = 0 ∧ inflow_internal line [q0;q1] [0;1]%nat 1 = q0 ∧
  inflow_internal line [q0;q1] [1]%nat 2 = q1 ∧
  outflow line [q0;q1] s0 [0]%nat 0 = Rmax (- s0) 0 + q0 ∧ outflow line [q0;q1] s1 [0;1]%nat 1 = Rmax (- s1) 0 + q1 ∧
  outflow line [q0;q1] s2 [1]%nat 2 = - s2.
Proof using Hq0 Hq1 Hs2.
  unfold inflow_internal, outflow. cbn [rsum]. rewrite up0, up1, out00, out10, out11, out21.
  rewrite !decide_False by done.
  rewrite (Rmax_right (- q0)), (Rmax_left (- - q0)), (Rmax_right (- q1)), (Rmax_left (- - q1)), (Rmax_left q0), (Rmax_left q1) by lra.
  rewrite (Rmax_left (- s2)) by lra. lra.
Qed.
End line.

(** One injector, one cell passed through, one producer. *)
Example C16_example_tof : problem line line_cf [1;1] [5;6;7] [1;0;-1].
Proof. apply line_problem; [lra|lra|lra|done]. Qed.
Example C49_example : tracer_conserving line line_cf [1;1] [1;0;-1].
Proof.
  destruct (line_flux 1 1 1 0 (-1)) as (I0 & I1 & I2 & O0 & O1 & O2); [lra|lra|lra|].
  intros c fs s Hfs Hs. destruct c as [|[|[|c]]]; [..|done]; cbn in Hfs, Hs; injection Hfs as <-; injection Hs as <-.
  - split; [lra|]. intros _ u Hu. apply line_flows in Hu; [lia|lra|lra].
  - split; [|lra]. intros _. rewrite I1, O1. rewrite Rmax_right by lra. lra.
  - split; [|lra]. intros _. rewrite I2, O2. lra.
Qed.

(** Without the condition on injection cells the claim is false: fluid is
    conserved in each of the three cells, but cell 1 is injected into although
    cell 0 flows into it, and its tracers become -1 and 1. *)
Theorem C49_tracers_sum_to_one_refuted :
  ∃ g cf flux pv src, problem g cf flux pv src ∧
    (∀ c fs s, cf !! c = Some fs → src !! c = Some s →
       inflow_internal g flux fs c + Rmax s 0 = outflow g flux s fs c) ∧
    ∃ m x c, (∀ fuel, (m ≤ fuel)%nat → solve_tof_tracer g flux pv src fuel = Some x) ∧ (c < u_nc g)%nat ∧
      rsum (λ tr, tracer_of x tr c) (seq 0 (length (tracer_heads g src))) = 0 ∧ tracer_of x 0 c = -1.
Proof.
  exists line, line_cf, [1;2], [1;1;1], [1;1;-2].
  assert (HP : problem line line_cf [1;2] [1;1;1] [1;1;-2]) by (apply line_problem; [lra|lra|lra|done]).
  split; [done|]. split.
  - destruct (line_flux 1 2 1 1 (-2)) as (I0 & I1 & I2 & O0 & O1 & O2); [lra|lra|lra|].
    intros c fs s Hfs Hs. destruct c as [|[|[|c]]]; [..|done]; cbn in Hfs, Hs; injection Hfs as <-; injection Hs as <-.
    + rewrite I0, O0. rewrite (Rmax_left 1), Rmax_right by lra. lra.
    + rewrite I1, O1. rewrite (Rmax_left 1), Rmax_right by lra. lra.
    + rewrite I2, O2. rewrite Rmax_right by lra. lra.
  - destruct (tracer_final _ _ _ _ _ HP) as (m & x & Hrun & Hl & Hlen & Heq).
    assert (Hh : tracer_heads line [1;1;-2] = [0;1]%nat).
    { unfold tracer_heads. cbn [u_nc line seq]. rewrite !filter_cons, filter_nil. cbn.
      unfold r_pos. destruct (Rlt_dec 0 1) as [H|H]; [|lra]. destruct (Rlt_dec 0 (-2)) as [H'|H']; [lra|]. done. }
    rewrite Hh in Heq.
    assert (E0 : ∀ tr, tracer_of x tr 0 = default 0 (start_row [0;1]%nat 0 !! tr)).
    { intros tr. rewrite (Heq 0%nat [0]%nat 1 tr) by done. destruct (Rle_dec 1 0); [lra|]. cbn [rsum].
      unfold infl. rewrite out00. destruct (Rlt_dec 1 0); lra. }
    assert (E1 : ∀ tr, tracer_of x tr 1 = default 0 (start_row [0;1]%nat 1 !! tr) - default 0 (start_row [0;1]%nat 0 !! tr)).
    { intros tr. rewrite (Heq 1%nat [0;1]%nat 1 tr) by done. destruct (Rle_dec 1 0); [lra|]. cbn [rsum].
      unfold infl. rewrite out10, out11. destruct (Rlt_dec (Ropp 1) 0); [|lra]. destruct (Rlt_dec 2 0); [lra|].
      unfold carried. rewrite up0 by lra. rewrite decide_False by done. change (Z.to_nat 0) with 0%nat. rewrite E0. lra. }
    exists m, x, 1%nat. split; [done|]. split; [simpl; lia|]. rewrite Hh. cbn [length seq rsum]. rewrite !E1.
    assert (V : default 0 (start_row [0;1]%nat 1 !! 0%nat) = 0 ∧ default 0 (start_row [0;1]%nat 0 !! 0%nat) = 1 ∧
                default 0 (start_row [0;1]%nat 1 !! 1%nat) = 1 ∧ default 0 (start_row [0;1]%nat 0 !! 1%nat) = 0) by done.
    destruct V as (V1 & V2 & V3 & V4). rewrite V1, V2, V3, V4. lra.
Qed.
Print Assumptions C49_tracers_sum_to_one_refuted.
