(** Time-of-flight and tracers: the cell solver satisfies the discrete equation. *)
From Coq Require Import Reals Lra.
From stdpp Require Import relations.
From Verif Require Import Base CsrSpec GridModel GridSpec ReorderModel ReorderProof ReorderProps TofModel TofSpec.
Local Open Scope R_scope.

Lemma sign_laws_real : sign_laws r_pos r_neg Ropp.
Proof.
  unfold r_pos, r_neg. split_and!; intros x; repeat destruct (Rlt_dec _ _); try done; lra.
Qed.

Lemma rsum_ext {A} (h k : A → R) l : (∀ f, f ∈ l → h f = k f) → rsum h l = rsum k l.
Proof.
  induction l as [|f l IH]; intros H; [done|]. simpl. rewrite (H f) by left.
  rewrite IH; [done|]. intros x Hx. apply H. by right.
Qed.
Lemma rsum_lin {A} (a b : R) (h k : A → R) l : rsum (λ f, a * h f + b * k f) l = a * rsum h l + b * rsum k l.
Proof. induction l as [|f l IH]; simpl; [lra|]. rewrite IH. lra. Qed.
Lemma rsum_nonneg {A} (h : A → R) l : (∀ f, f ∈ l → 0 <= h f) → 0 <= rsum h l.
Proof.
  induction l as [|f l IH]; intros H; simpl; [lra|]. pose proof (H f ltac:(left)).
  specialize (IH ltac:(intros; apply H; by right)). lra.
Qed.
Lemma rsum_swap {A B} (h : A → B → R) l m :
  rsum (λ x, rsum (h x) m) l = rsum (λ y, rsum (λ x, h x y) l) m.
Proof.
  induction l as [|x l IH]; simpl.
  - induction m as [|y m IH]; simpl; lra.
  - rewrite IH. clear IH. induction m as [|y m IH]; simpl; [lra|]. rewrite <- IH. lra.
Qed.

Lemma triple_eq (a a' b b' : R) (o : list R) : a = a' → b = b' → Some (a, b, o) = Some (a', b', o).
Proof. by intros -> ->. Qed.

Definition tofv (x : list (R * list R)) (u : nat) : R := default 0 (option_map fst (x !! u)).
Definition trv (x : list (R * list R)) (tr u : nat) : R :=
  default 0 (match x !! u with Some v => v.2 !! tr | None => None end).

Section tof.
Variable g : ugrid.
Variable cf : list (list nat).
Variables flux pv src : list R.
Hypothesis Hg : grid_ok g cf.
Hypothesis Hflux : length flux = u_nf g.
Hypothesis Hpv : length pv = u_nc g.
Hypothesis Hsrc : length src = u_nc g.
Notation flows := (flows r_pos r_neg g flux).
Notation out := (out g flux).
Notation upstream := (upstream g flux).
Notation carried := (carried g flux).

Definition infl (val : nat → R) (c f : nat) : R := if Rlt_dec (out c f) 0 then - out c f * carried val f else 0.

(** What the loop body sees of a face. *)
Lemma face_facts c r f : cf !! c = Some r → f ∈ r →
  ∃ a b d, u_facecells g !! (2 * f)%nat = Some a ∧ u_facecells g !! (2 * f + 1)%nat = Some b ∧ flux !! f = Some d ∧
    (if decide (Z.of_nat c = a) then d else - d) = out c f ∧
    (out c f < 0 → upstream f = (if decide (Z.of_nat c = a) then b else a)) ∧
    (0 < out c f → upstream f = Z.of_nat c) ∧
    (-1 ≤ upstream f < Z.of_nat (u_nc g))%Z ∧
    (out c f < 0 → upstream f ≠ (-1)%Z → flows (Z.to_nat (upstream f)) c) ∧
    upstream f = upstream f.
Proof using Hg Hflux. clear Hpv Hsrc pv src.
  intros Hr Hf. apply (ok_inc _ _ Hg _ _ _ Hr) in Hf as (a & b & Hab & Hi).
  pose proof (ok_range _ _ Hg f a b Hab) as (Ha & Hb & Hne).
  assert (Hlt : (f < u_nf g)%nat).
  { destruct Hab as [_ H]. apply lookup_lt_Some in H. rewrite (ok_faces _ _ Hg) in H. lia. }
  destruct (lookup_lt_is_Some_2 flux f) as [d Hd]; [lia|].
  exists a, b, d. destruct Hab as [Ea Eb]. split_and!; [done|done|done|..].
  - unfold TofSpec.out. rewrite Ea, Hd. destruct (decide (Z.of_nat c = a)) as [H1|H1], (decide (a = Z.of_nat c)) as [H2|H2]; congruence.
  - unfold TofSpec.out, TofSpec.upstream. rewrite Ea, Eb, Hd.
    destruct (decide (Z.of_nat c = a)) as [H1|H1], (decide (a = Z.of_nat c)) as [H2|H2], (Rlt_dec 0 d); try congruence; try lra; done.
  - unfold TofSpec.out, TofSpec.upstream. rewrite Ea, Eb, Hd.
    destruct (decide (a = Z.of_nat c)) as [->|H2], (Rlt_dec 0 d); try done; try lra.
    intros _. destruct Hi; [done|done].
  - unfold TofSpec.upstream. rewrite Ea, Eb, Hd. destruct (Rlt_dec 0 d); lia.
  - unfold TofSpec.upstream. rewrite Ea, Eb, Hd. destruct (Rlt_dec 0 d); lia.
  - unfold TofSpec.out, TofSpec.upstream. rewrite Ea, Eb, Hd. intros Ho Hup.
    exists f, d. split; [done|]. unfold r_pos, r_neg, face_between.
    destruct (decide (a = Z.of_nat c)) as [->|H2], (Rlt_dec 0 d) as [Hp|Hp]; try lra.
    + right. rewrite Z2Nat.id by lia. split; [by split|]. destruct (Rlt_dec d 0); [done|lra].
    + left. rewrite Z2Nat.id by lia. destruct Hi as [?|Hi]; [done|]. rewrite <- Hi. done.
  - done.
Qed.

Lemma zip_lookup (fl : R) (own row : list R) nt tr :
  length own = nt → length row = nt →
  default 0 (zip_with (λ p q, p + fl * q) own row !! tr) = default 0 (own !! tr) + fl * default 0 (row !! tr).
Proof using. clear Hg Hflux Hpv Hsrc pv src.
  intros H1 H2. rewrite lookup_zip_with. destruct (decide (tr < nt)%nat) as [H|H].
  - destruct (lookup_lt_is_Some_2 own tr) as [p Hp]; [lia|]. destruct (lookup_lt_is_Some_2 row tr) as [q Hq]; [lia|].
    rewrite Hp, Hq. done.
  - rewrite !lookup_ge_None_2 by lia. simpl. lra.
Qed.

Lemma tof_loop_ok c r b x k up dn own :
  cf !! c = Some r → (∀ k, (k < length r)%nat → u_cellfaces g !! (b + k)%nat = r !! k) →
  length x = u_nc g → (k ≤ length r)%nat →
  ∃ own', tof_loop g flux c (seq (b + k) (length r - k)) up dn own x =
      Some (up - rsum (infl (tofv x) c) (drop k r), dn + rsum (λ f, Rmax (out c f) 0) (drop k r), own') ∧
    (∀ nt, length own = nt → (∀ u v, flows u c → x !! u = Some v → length v.2 = nt) →
       length own' = nt ∧
       ∀ tr, default 0 (own' !! tr) = default 0 (own !! tr) - rsum (infl (trv x tr) c) (drop k r)).
Proof using Hg Hflux. clear Hpv Hsrc pv src.
  intros Hr Hread Hx. remember (length r - k)%nat as n eqn:Hn. revert k up dn own Hn.
  induction n as [|n IH]; intros k up dn own Hn Hk; cbn [seq tof_loop].
  - rewrite drop_ge by lia. exists own. simpl. split; [apply triple_eq; lra|].
    intros nt Hnt _. split; [done|]. intros tr. lra.
  - rewrite Hread by lia. destruct (lookup_lt_is_Some_2 r k) as [f Hf]; [lia|]. rewrite Hf. cbn [mbind option_bind].
    destruct (face_facts c r f Hr) as (a & e & d & Ea & Ee & Ed & Eout & Hup & Hupp & Hrg & Hfl & _); [by eapply elem_of_list_lookup_2|].
    rewrite Ea, Ee, Ed. cbn [mbind option_bind]. rewrite Eout. rewrite (drop_S _ _ _ Hf). cbn [rsum].
    replace (S (b + k)) with (b + S k)%nat by lia.
    destruct (Rlt_dec (out c f) 0) as [Hneg|Hneg].
    + rewrite <- (Hup Hneg).
      assert (Hm : Rmax (out c f) 0 = 0) by (apply Rmax_right; lra).
      assert (Hinf : ∀ val, infl val c f = - out c f * carried val f).
      { intros val. unfold infl. by destruct (Rlt_dec (out c f) 0). }
      destruct (decide (upstream f = (-1)%Z)) as [Ho|Ho].
      * destruct (IH (S k) up dn own ltac:(lia) ltac:(lia)) as (own' & E & Hown). exists own'. rewrite E. split.
        -- apply triple_eq.
           ++ rewrite Hinf. unfold TofSpec.carried. rewrite decide_True by done. lra.
           ++ rewrite Hm. lra.
        -- intros nt Hnt Hrows. destruct (Hown nt Hnt Hrows) as [L Hv]. split; [done|]. intros tr. rewrite (Hv tr), Hinf.
           unfold TofSpec.carried. rewrite decide_True by done. lra.
      * specialize (Hfl Hneg Ho). destruct (lookup_lt_is_Some_2 x (Z.to_nat (upstream f))) as [[t row] Hrow]; [lia|].
        rewrite Hrow. cbn [mbind option_bind].
        destruct (IH (S k) (up + out c f * t) dn (zip_with (λ p q, p + out c f * q) own row) ltac:(lia) ltac:(lia)) as (own' & E & Hown).
        exists own'. rewrite E. split.
        -- apply triple_eq.
           ++ rewrite Hinf. unfold TofSpec.carried, tofv. rewrite decide_False by done. rewrite Hrow. simpl. lra.
           ++ rewrite Hm. lra.
        -- intros nt Hnt Hrows. pose proof (Hrows _ _ Hfl Hrow) as Hrl. simpl in Hrl.
           destruct (Hown nt) as [L Hv].
           { rewrite zip_with_length. lia. } { done. }
           split; [done|]. intros tr. rewrite (Hv tr), Hinf. rewrite (zip_lookup _ _ _ nt) by done.
           unfold TofSpec.carried, trv. rewrite decide_False by done. rewrite Hrow. simpl. lra.
    + assert (Hm : Rmax (out c f) 0 = out c f) by (apply Rmax_left; lra).
      assert (Hinf : ∀ val, infl val c f = 0).
      { intros val. unfold infl. by destruct (Rlt_dec (out c f) 0). }
      destruct (IH (S k) up (dn + out c f) own ltac:(lia) ltac:(lia)) as (own' & E & Hown).
      exists own'. rewrite E. split.
      * apply triple_eq; rewrite ?Hinf, ?Hm; lra.
      * intros nt Hnt Hrows. destruct (Hown nt Hnt Hrows) as [L Hv]. split; [done|]. intros tr. rewrite (Hv tr), Hinf. lra.
Qed.

(** The new value of a cell. *)
Lemma tof_cell_ok c r s p x v :
  cf !! c = Some r → src !! c = Some s → pv !! c = Some p → length x = u_nc g → x !! c = Some v →
  ∃ t own, tof_cell g flux pv src c x = Some (t, own) ∧
    t = (p + rsum (infl (tofv x) c) r) / outflow g flux s r c ∧
    (∀ nt, length v.2 = nt → (∀ u w, flows u c → x !! u = Some w → length w.2 = nt) →
       length own = nt ∧
       ∀ tr, default 0 (own !! tr) =
         if Rle_dec s 0 then (default 0 (v.2 !! tr) - rsum (infl (trv x tr) c) r) * (-1 / outflow g flux s r c)
         else default 0 (v.2 !! tr) - rsum (infl (trv x tr) c) r).
Proof.
  intros Hr Hs Hp Hx Hv. unfold tof_cell. rewrite Hs, Hp, Hv. cbn [mbind option_bind]. destruct v as [t0 own0].
  destruct (cell_js g cf flux Hg Hflux c r Hr) as (b & e & Hb & He & Hlen & Hread). rewrite Hb, He. cbn [mbind option_bind].
  rewrite Hlen.
  destruct (tof_loop_ok c r b x 0 0 (Rmax (- s) 0) own0 Hr Hread Hx ltac:(lia)) as (own' & E & Hown).
  rewrite Nat.add_0_r, Nat.sub_0_r in E. rewrite drop_0 in E. rewrite E. cbn [mbind option_bind].
  eexists _, _. split; [done|]. split.
  - unfold outflow. f_equal. lra.
  - intros nt Hnt Hrows. destruct (Hown nt Hnt Hrows) as [L Hval]. rewrite drop_0 in Hval.
    destruct (Rle_dec s 0) as [Hle|Hle]; [|done]. split; [by rewrite map_length|]. intros tr.
    rewrite list_lookup_fmap. simpl. rewrite <- Hval. unfold outflow.
    destruct (own' !! tr); simpl; [done|lra].
Qed.

Lemma tof_reads_upwind : reads_upwind r_pos r_neg (tof_cell g flux pv src) g flux.
Proof.
  intros c x y Hc Hx Hy Hown Hup. unfold tof_cell. rewrite Hown.
  destruct (src !! c); [|done]. destruct (pv !! c); [|done]. cbn [mbind option_bind].
  destruct (y !! c) as [[t0 own0]|]; [|done]. cbn [mbind option_bind].
  destruct (lookup_lt_is_Some_2 cf c) as [r' Hr']; [by rewrite (ok_cells _ _ Hg)|].
  destruct (cell_js g cf flux Hg Hflux c r' Hr') as (b & e & Hb & He & Hlen & Hread). rewrite Hb, He. cbn [mbind option_bind].
  rewrite Hlen.
  assert (G : ∀ n k up dn own, n = (length r' - k)%nat → (k ≤ length r')%nat →
    tof_loop g flux c (seq (b + k) n) up dn own x = tof_loop g flux c (seq (b + k) n) up dn own y).
  { induction n as [|n IH]; intros k up dn own Hn Hk; [done|]. cbn [seq tof_loop].
    rewrite Hread by lia. destruct (lookup_lt_is_Some_2 r' k) as [f Hf]; [lia|]. rewrite Hf. cbn [mbind option_bind].
    destruct (face_facts c r' f Hr') as (a & e' & d & Ea & Ee & Ed & Eout & Hupf & Hupp & Hrg & Hfl & _); [by eapply elem_of_list_lookup_2|].
    rewrite Ea, Ee, Ed. cbn [mbind option_bind]. rewrite Eout.
    replace (S (b + k)) with (b + S k)%nat by lia.
    destruct (Rlt_dec (out c f) 0) as [Hneg|Hneg]; [|apply IH; lia].
    rewrite <- (Hupf Hneg). destruct (decide (upstream f = (-1)%Z)) as [Ho|Ho]; [apply IH; lia|].
    rewrite (Hup _ (Hfl Hneg Ho)). destruct (y !! Z.to_nat (upstream f)) as [[t row]|]; [|done].
    cbn [mbind option_bind]. apply IH; lia. }
  specialize (G (length r') 0%nat 0 (Rmax (- r) 0) own0 ltac:(lia) ltac:(lia)). rewrite Nat.add_0_r in G.
  by rewrite G.
Qed.

Lemma tof_never_fails : never_fails (tof_cell g flux pv src) g.
Proof.
  intros c x Hc Hx. destruct (lookup_lt_is_Some_2 cf c) as [r Hr]; [by rewrite (ok_cells _ _ Hg)|].
  destruct (lookup_lt_is_Some_2 src c) as [s Hs]; [lia|]. destruct (lookup_lt_is_Some_2 pv c) as [p Hp]; [lia|].
  destruct (lookup_lt_is_Some_2 x c) as [v Hv]; [lia|].
  destruct (tof_cell_ok c r s p x v Hr Hs Hp Hx Hv) as (t & own & -> & _). by eexists.
Qed.

(** Splitting the sum over faces. *)
Lemma split_balance val c r : cf !! c = Some r →
  rsum (λ f, out c f * carried val f) r = val c * rsum (λ f, Rmax (out c f) 0) r - rsum (infl val c) r.
Proof using Hg Hflux. clear Hpv Hsrc pv src.
  intros Hr. replace (val c * _ - _) with (val c * rsum (λ f, Rmax (out c f) 0) r + -1 * rsum (infl val c) r) by lra.
  rewrite <- rsum_lin. apply rsum_ext. intros f Hf.
  destruct (face_facts c r f Hr Hf) as (a & e & d & _ & _ & _ & _ & _ & Hpos & _).
  unfold infl. destruct (Rlt_dec (out c f) 0) as [H|H].
  - rewrite (Rmax_right (out c f) 0) by lra. lra.
  - rewrite (Rmax_left (out c f) 0) by lra. destruct (Req_dec (out c f) 0) as [E|E]; [rewrite E; lra|].
    unfold TofSpec.carried. rewrite Hpos by lra. rewrite decide_False by lia. rewrite Nat2Z.id. lra.
Qed.

Lemma infl_scale val c r : cf !! c = Some r → (∀ u, flows u c → val u = 1) →
  rsum (infl val c) r = inflow_internal g flux r c.
Proof using Hg Hflux. clear Hpv Hsrc pv src.
  intros Hr Hval. unfold inflow_internal. apply rsum_ext. intros f Hf.
  destruct (face_facts c r f Hr Hf) as (a & e & d & _ & _ & _ & _ & _ & Hpos & Hrg & Hfl & _).
  unfold infl, TofSpec.carried. destruct (Rlt_dec (out c f) 0) as [H|H].
  - destruct (decide (upstream f = (-1)%Z)); [lra|]. rewrite Hval by auto. rewrite Rmax_left by lra. lra.
  - destruct (decide (upstream f = (-1)%Z)); [lra|]. by rewrite Rmax_right by lra.
Qed.

Lemma infl_nonneg val c r : cf !! c = Some r → (∀ u, flows u c → 0 <= val u) → 0 <= rsum (infl val c) r.
Proof using Hg Hflux. clear Hpv Hsrc pv src.
  intros Hr Hval. apply rsum_nonneg. intros f Hf.
  destruct (face_facts c r f Hr Hf) as (a & e & d & _ & _ & _ & _ & _ & Hpos & Hrg & Hfl & _).
  unfold infl, TofSpec.carried. destruct (Rlt_dec (out c f) 0) as [H|H]; [|lra].
  destruct (decide (upstream f = (-1)%Z)); [lra|]. apply Rmult_le_pos; [lra|]. auto.
Qed.
End tof.
