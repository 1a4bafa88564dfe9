(** C47: sources of the transport equation. *)
From Coq Require Import Reals Lra Psatz.
From Verif Require Import Base LoopModel LoopProof CsrSpec CsrProof TofSpec AccModel AccProof TableModel GridModel WellsModel MiscModel MiscSpec MiscProps.
Unset Default Proof Using.
Local Open Scope R_scope.

Lemma weigh_0 frac : weigh frac 0 = 0.
Proof. unfold weigh. destruct (Rlt_dec 0 0); lra. Qed.
Lemma run_accs' {A} (f : A → list R → option (list R)) (kv : A → list (nat * R)) l s n : length s = n →
  (∀ a s, a ∈ l → length s = n → f a s = accs s (kv a)) → run f l s = accs s (concat (map kv l)).
Proof.
  revert s. induction l as [|a l IH]; intros s Hn H; [done|]. cbn [run map concat]. rewrite accs_app, H by (done || left).
  destruct (accs s (kv a)) as [t|] eqn:E; [|done]. cbn [mbind option_bind]. apply IH; [|intros; apply H; [by right|done]]. apply accs_inv in E as [-> _]. done.
Qed.
Lemma seq_lookup_list (ja : list nat) b n r : slice ja b n = Some r → r = map (λ hf, default 0%nat (ja !! hf)) (seq b n).
Proof.
  intros H. apply list_eq. intros i. rewrite list_lookup_fmap. destruct (decide (i < n)%nat) as [Hi|Hi].
  - rewrite lookup_seq_lt by done. cbn. pose proof (slice_lookup _ _ _ _ _ H Hi) as E. apply slice_length in H. destruct (lookup_lt_is_Some_2 r i) as [x Ex]; [lia|]. by rewrite E, Ex.
  - rewrite lookup_ge_None_2 by (apply slice_length in H; lia). rewrite lookup_seq_ge by lia. done.
Qed.

Section transport.
Context {N : Type}.
Variable g : ugrid.
Variables src flux : list R.
Variable frac : R.
Variable rows : list (list nat).
Hypothesis Hrows : holds_rows (u_facepos g) (u_cellfaces g) rows.
Hypothesis Hnc : length rows = u_nc g.
Hypothesis Hfaces : ∀ c r f, rows !! c = Some r → f ∈ r → (f < u_nf g)%nat.
Hypothesis Hfc : length (u_facecells g) = (2 * u_nf g)%nat.
Hypothesis Hflux : length flux = u_nf g.
Hypothesis Hsrc : length src = u_nc g.

(** The sources and the boundary faces of a cell. *)
Definition cell_source (c : nat) (r : list nat) : R := weigh frac (val src c) + rsum (λ f, weigh frac (entering g flux c f)) r.

Definition face_kv (c hf : nat) : list (nat * R) :=
  let x := entering g flux c (default 0%nat (u_cellfaces g !! hf)) in if Req_EM_T x 0 then [] else [(c, weigh frac x)].
Lemma source_face_accs c hf f ts : u_cellfaces g !! hf = Some f → (f < u_nf g)%nat → source_face g flux frac c hf ts = accs ts (face_kv c hf).
Proof using Hfc Hflux.
  clear Hrows Hnc Hfaces Hsrc. intros E Hf. unfold source_face, face_kv, entering. rewrite E. cbn [mbind option_bind default]. unfold Datatypes.id.
  destruct (lookup_lt_is_Some_2 (u_facecells g) (2 * f)) as [a Ea]; [lia|]. destruct (lookup_lt_is_Some_2 (u_facecells g) (2 * f + 1)) as [b Eb]; [lia|].
  rewrite Ea, Eb. cbn [mbind option_bind]. rewrite (val_Some flux f) by lia.
  destruct (decide (a = Z.of_nat c ∧ b = (-1)%Z)); [|destruct (decide (a = (-1)%Z ∧ b = Z.of_nat c))]; cbn [mbind option_bind];
    (destruct (Req_EM_T _ _); [done|]; cbn [accs fst snd]; unfold weigh; by destruct (addto _ _ _)).
Qed.
Lemma source_cell_ok c r ts : rows !! c = Some r → length ts = u_nc g →
  ∃ ts', source_cell g src flux frac c ts = Some ts' ∧ length ts' = u_nc g ∧ ts' !! c = Some (cell_source c r) ∧ ∀ i, i ≠ c → ts' !! i = ts !! i.
Proof using Hrows Hnc Hfaces Hfc Hflux Hsrc.
  intros Hr Hl. assert (c < u_nc g)%nat as Hc by (rewrite <- Hnc; by eapply lookup_lt_Some).
  unfold source_cell. rewrite upd_Some by lia. cbn [mbind option_bind]. rewrite (val_Some src c) by lia. cbn [mbind option_bind].
  rewrite (addto_Some _ _ _ 0) by (apply list_lookup_insert; lia). cbn [mbind option_bind]. fold (weigh frac (val src c)). rewrite list_insert_insert.
  destruct Hrows as (_ & _ & _ & HR). destruct (HR c r Hr) as (b & e & -> & -> & Hbe & Hsl). cbn [mbind option_bind].
  rewrite for_loop_run. rewrite (run_accs' _ (face_kv c) _ _ (u_nc g)).
  2: by rewrite insert_length.
  2: { intros hf t Hh _. apply elem_of_seq in Hh. destruct (lookup_lt_is_Some_2 r (hf - b)) as [f Ef]; [apply slice_length in Hsl; lia|].
       pose proof (slice_lookup _ _ _ _ (hf - b) Hsl ltac:(lia)) as E. replace (b + (hf - b))%nat with hf in E by lia. rewrite Ef in E.
       apply (source_face_accs _ _ f); [done|]. apply (Hfaces c r); [done|]. by eapply elem_of_list_lookup_2. }
  set (ts0 := <[c:=_]> ts). set (kvs := concat _).
  assert (∀ k v, (k, v) ∈ kvs → k = c) as Hk.
  { intros k v H. apply elem_of_list_In, in_concat in H as (l & Hl' & Hkv). apply in_map_iff in Hl' as (hf & <- & _). unfold face_kv in Hkv. destruct (Req_EM_T _ _); [done|]. destruct Hkv as [E|[]]. by injection E. }
  destruct (accs_ok ts0 kvs) as [ts' E]. { intros k v H. apply Hk in H as ->. unfold ts0. rewrite insert_length. lia. }
  exists ts'. split; [done|]. apply accs_inv in E as [L H]. unfold ts0 in L. rewrite insert_length in L. split; [lia|]. split.
  - rewrite H. unfold ts0. rewrite list_lookup_insert by lia. cbn. f_equal. unfold cell_source. rewrite Rplus_0_l. f_equal.
    unfold kvs. rewrite tally_concat. rewrite (seq_lookup_list _ _ _ _ Hsl), rsum_map. apply rsum_ext. intros hf _. unfold face_kv.
    destruct (Req_EM_T _ _) as [E|_]; [rewrite E, weigh_0; apply tally_nil|]. rewrite tally_cons, tally_nil, decide_True by done. lra.
  - intros i Hi. rewrite H. unfold ts0. rewrite list_lookup_insert_ne by done. destruct (ts !! i); [|done]. cbn. f_equal.
    unfold kvs. rewrite tally_concat, rsum_zero; [lra|]. intros hf _. unfold face_kv. destruct (Req_EM_T _ _); [apply tally_nil|]. rewrite tally_cons, tally_nil, decide_False by done. lra.
Qed.
Lemma cells_ok ts : ∃ ts', for_loop (u_nc g) 0 (source_cell g src flux frac) (resize (u_nc g) ts) = Some ts' ∧ length ts' = u_nc g ∧
  ∀ c r, rows !! c = Some r → ts' !! c = Some (cell_source c r).
Proof using Hrows Hnc Hfaces Hfc Hflux Hsrc.
  destruct (for_loop_inv (λ k t, length t = u_nc g ∧ ∀ c r, (c < k)%nat → rows !! c = Some r → t !! c = Some (cell_source c r)) (u_nc g) 0 (source_cell g src flux frac) (resize (u_nc g) ts)) as (t & E & L & H).
  - split; [apply resize_length|]. intros; lia.
  - intros k t Hk [L H]. destruct (lookup_lt_is_Some_2 rows k) as [r Hr]; [lia|]. destruct (source_cell_ok k r t Hr L) as (t' & E & L' & Hc & Ho).
    exists t'. split; [done|]. split; [done|]. intros c r' Hc' Hr'. destruct (decide (c = k)) as [->|Hn]; [congruence|]. rewrite Ho by done. apply H; [lia|done].
  - exists t. split; [done|]. split; [done|]. intros c r Hr. apply H; [|done]. apply lookup_lt_Some in Hr. lia.
Qed.

(** Without wells. *)
Theorem C47_transport_cells rates ts : ∃ ts', compute_transport_source (name_t := N) g src flux frac None rates ts = Some ts' ∧ length ts' = u_nc g ∧
  ∀ c r, rows !! c = Some r → ts' !! c = Some (cell_source c r).
Proof using Hrows Hnc Hfaces Hfc Hflux Hsrc. unfold compute_transport_source. destruct (cells_ok ts) as (t & -> & H). by exists t. Qed.

(** ** Wells *)
Section wells.
Variable W : @wells R N.
Variable rates : list R.
(** Two phases; every perforation in a cell of the grid and with a rate; the
    fractions of injectors nearly add up to one. *)
Definition wells_fit : Prop :=
  w_np W = 2%nat ∧ (∀ w, (w <= w_nw W)%nat → is_Some (w_connpos W !! w)) ∧
  ∀ w p, (w, p) ∈ perforations W →
    (∃ c, w_cells W !! p = Some (Z.of_nat c) ∧ (c < u_nc g)%nat) ∧ (p < length rates)%nat ∧
    ∃ t, w_type W !! w = Some t ∧ (t = INJECTOR → 0 < val rates p → ∃ f0 f1, w_comp_frac W !! (2 * w)%nat = Some f0 ∧ w_comp_frac W !! (2 * w + 1)%nat = Some f1 ∧ Rabs (f0 + f1 - 1) < 1 / 1000000).
Hypothesis HW : wells_fit.
Definition perf_kv (wp : nat * nat) : list (nat * R) := [(Z.to_nat (default 0%Z (w_cells W !! wp.2)), perf_source W rates wp.1 wp.2)].
Lemma source_perf_accs w p ts : (w, p) ∈ perforations W → source_perf W rates w p ts = accs ts (perf_kv (w, p)).
Proof using HW.
  clear Hrows Hnc Hfaces Hfc Hflux Hsrc. intros Hwp. destruct HW as (_ & _ & H). destruct (H w p Hwp) as ((c & Ec & Hc) & Hp & t & Et & Hinj).
  unfold source_perf, perf_kv, perf_source. cbn [fst snd]. rewrite Ec. cbn [mbind option_bind default]. unfold Datatypes.id. rewrite (val_Some rates p) by done. cbn [mbind option_bind].
  destruct (Rlt_dec 0 (val rates p)) as [Hr|Hr].
  - rewrite Et. cbn [mbind option_bind]. destruct (decide (t = INJECTOR)) as [->|Hn].
    + destruct (Hinj eq_refl Hr) as (f0 & f1 & E0 & E1 & Hs). rewrite E0, E1. cbn [mbind option_bind]. destruct (Rlt_dec _ _); [|done]. cbn [mbind option_bind].
      rewrite decide_False by lia. rewrite decide_True by done. rewrite (val_eq _ _ _ E0). cbn [accs fst snd]. by destruct (addto _ _ _).
    + cbn [mbind option_bind]. rewrite decide_False by lia. rewrite decide_False by congruence. cbn [accs fst snd]. by destruct (addto _ _ _).
  - cbn [mbind option_bind]. rewrite decide_False by lia. cbn [accs fst snd]. by destruct (addto _ _ _).
Qed.
Lemma wells_accs ts : for_loop (w_nw W) 0 (λ w ts, b ← w_connpos W !! w; e ← w_connpos W !! S w; for_loop (e - b) b (source_perf W rates w) ts) ts =
  accs ts (concat (map perf_kv (perforations W))).
Proof using HW.
  clear Hrows Hnc Hfaces Hfc Hflux Hsrc. rewrite for_loop_run. rewrite <- (run_accs (λ wp, source_perf W rates wp.1 wp.2) perf_kv).
  2: { intros [w p] t Hwp. by apply source_perf_accs. }
  unfold perforations. rewrite run_concat. apply run_ext. intros w t Hw. apply elem_of_seq in Hw. destruct HW as (_ & Hpos & _).
  destruct (Hpos w) as [b Eb]; [lia|]. destruct (Hpos (S w)) as [e Ee]; [lia|]. rewrite Eb, Ee. cbn [mbind option_bind default]. unfold Datatypes.id.
  rewrite for_loop_run. clear. revert t. generalize (seq b (e - b)). intros l. induction l as [|p l IH]; intros t; [done|]. cbn [map run]. cbn [fst snd]. destruct (source_perf _ _ _ _ _); [|done]. cbn [mbind option_bind]. apply IH.
Qed.

(** Each cell gets its source, what enters and leaves through its boundary
    faces, and its perforations. *)
Theorem C47_transport ts : ∃ ts', compute_transport_source g src flux frac (Some W) rates ts = Some ts' ∧ length ts' = u_nc g ∧
  ∀ c r, rows !! c = Some r → ts' !! c = Some (cell_source c r + rsum (λ wp, if decide (w_cells W !! wp.2 = Some (Z.of_nat c)) then perf_source W rates wp.1 wp.2 else 0) (perforations W)).
Proof using Hrows Hnc Hfaces Hfc Hflux Hsrc HW.
  unfold compute_transport_source. destruct (cells_ok ts) as (t & -> & L & H). cbn [mbind option_bind]. rewrite decide_True by apply HW. rewrite wells_accs.
  destruct (accs_ok t (concat (map perf_kv (perforations W)))) as [t' E].
  { intros k v Hk. apply elem_of_list_In, in_concat in Hk as (l & Hl' & Hkv). apply in_map_iff in Hl' as ([w p] & <- & Hwp). destruct Hkv as [E|[]]. injection E as <- _.
    apply elem_of_list_In in Hwp. destruct HW as (_ & _ & HP). destruct (HP w p Hwp) as ((c & Ec & Hc) & _). cbn. rewrite Ec. cbn. lia. }
  exists t'. split; [done|]. apply accs_inv in E as [L' H']. split; [lia|]. intros c r Hr. rewrite H', (H c r Hr). cbn. do 2 f_equal. rewrite tally_concat. apply rsum_ext.
  intros [w p] Hwp. unfold perf_kv. rewrite tally_cons, tally_nil. cbn [fst snd]. destruct HW as (_ & _ & HP). destruct (HP w p Hwp) as ((d & -> & _) & _). cbn.
  destruct (decide (Z.to_nat (Z.of_nat d) = c)) as [Hd|Hd]; [rewrite decide_True by (f_equal; lia); lra|]. rewrite decide_False; [lra|]. intros E. injection E. lia.
Qed.
End wells.

(** ** The whole grid *)
(** What enters through boundary face [f]. *)
Definition inflow (f : nat) : R :=
  match u_facecells g !! (2 * f)%nat, u_facecells g !! (2 * f + 1)%nat with
  | Some a, Some b => if decide (0 <= a ∧ b = -1)%Z then - val flux f else if decide (a = -1 ∧ 0 <= b)%Z then val flux f else 0
  | _, _ => 0
  end.
(** Every cell has the faces it is a neighbour of, once. *)
Definition consistent : Prop :=
  (∀ c r, rows !! c = Some r → NoDup r) ∧
  (∀ f k a, (f < u_nf g)%nat → (k < 2)%nat → u_facecells g !! (2 * f + k)%nat = Some a → (-1 <= a < Z.of_nat (u_nc g))%Z) ∧
  ∀ c r f, rows !! c = Some r → (f < u_nf g)%nat → f ∈ r ↔ (u_facecells g !! (2 * f)%nat = Some (Z.of_nat c) ∨ u_facecells g !! (2 * f + 1)%nat = Some (Z.of_nat c)).
Lemma row_seq c r (h : nat → R) : consistent → rows !! c = Some r → (∀ f, (f < u_nf g)%nat → f ∉ r → h f = 0) → rsum h r = rsum h (seq 0 (u_nf g)).
Proof using Hfaces.
  clear Hrows Hnc Hfc Hflux Hsrc. intros (Hnd & _ & _) Hr H0. specialize (Hnd c r Hr).
  rewrite (rsum_perm _ (seq 0 (u_nf g)) (filter (λ f, f ∈ r) (seq 0 (u_nf g)) ++ filter (λ f, f ∉ r) (seq 0 (u_nf g)))).
  2: { clear. induction (seq 0 (u_nf g)) as [|x l IH]; [done|]. rewrite !filter_cons. destruct (decide (x ∈ r)), (decide (x ∉ r)); try done; [simpl; by rewrite <- IH|]. rewrite <- Permutation_middle. by rewrite <- IH. }
  rewrite rsum_app. rewrite (rsum_zero _ (filter (λ f, f ∉ r) _)). 2: { intros f Hf. apply elem_of_list_filter in Hf as [? Hf]. apply elem_of_seq in Hf. apply H0; [lia|done]. }
  rewrite Rplus_0_r. apply rsum_perm. apply NoDup_Permutation; [done|apply NoDup_filter, NoDup_seq|]. intros f. rewrite elem_of_list_filter, elem_of_seq. split; [|tauto]. intros Hf. split; [done|]. specialize (Hfaces c r f Hr Hf). lia.
Qed.
(** Every boundary face counts once. *)
Theorem C47_boundary : consistent →
  rsum (λ c, rsum (λ f, weigh frac (entering g flux c f)) (default [] (rows !! c))) (seq 0 (u_nc g)) = rsum (λ f, weigh frac (inflow f)) (seq 0 (u_nf g)).
Proof using Hfaces Hnc Hfc.
  clear Hrows Hflux Hsrc. intros HC.
  rewrite (rsum_ext _ (λ c, rsum (λ f, weigh frac (entering g flux c f)) (seq 0 (u_nf g)))).
  2: { intros c Hc. apply elem_of_seq in Hc. destruct (lookup_lt_is_Some_2 rows c) as [r Hr]; [lia|]. rewrite Hr. cbn [default]. unfold Datatypes.id. apply (row_seq c); [done|done|].
       intros f Hf Hn. unfold entering. destruct HC as (_ & _ & HC). destruct (u_facecells g !! (2 * f)%nat) as [a|] eqn:Ea; [|by rewrite weigh_0]. destruct (u_facecells g !! (2 * f + 1)%nat) as [b|] eqn:Eb; [|by rewrite weigh_0].
       rewrite !decide_False; [by rewrite weigh_0| |].
       - intros [_ ->]. apply Hn. apply (HC c r f Hr Hf). by right.
       - intros [-> _]. apply Hn. apply (HC c r f Hr Hf). by left. }
  rewrite rsum_swap. apply rsum_ext. intros f Hf. apply elem_of_seq in Hf. unfold inflow, entering. destruct HC as (_ & HB & _).
  destruct (lookup_lt_is_Some_2 (u_facecells g) (2 * f)) as [a Ea]; [lia|]. destruct (lookup_lt_is_Some_2 (u_facecells g) (2 * f + 1)) as [b Eb]; [lia|]. rewrite Ea, Eb.
  pose proof (HB f 0%nat a ltac:(lia) ltac:(lia)) as Ba. rewrite Nat.add_0_r in Ba. specialize (Ba Ea). pose proof (HB f 1%nat b ltac:(lia) ltac:(lia) Eb) as Bb.
  destruct (decide (0 <= a ∧ b = -1)%Z) as [[H1 H2]|H1]; [|destruct (decide (a = -1 ∧ 0 <= b)%Z) as [[H2 H3]|H2]].
  - rewrite (rsum_ext _ (λ c, if decide (c = Z.to_nat a) then weigh frac (- val flux f) else 0)).
    + rewrite rsum_single; [done|apply NoDup_seq|apply elem_of_seq; lia].
    + intros c _. case_decide as Hc; [rewrite decide_True by lia; done|]. rewrite !decide_False by lia. apply weigh_0.
  - rewrite (rsum_ext _ (λ c, if decide (c = Z.to_nat b) then weigh frac (val flux f) else 0)).
    + rewrite rsum_single; [done|apply NoDup_seq|apply elem_of_seq; lia].
    + intros c _. rewrite decide_False by lia. case_decide as Hc; [rewrite decide_True by lia; done|]. rewrite !decide_False by lia. apply weigh_0.
  - rewrite weigh_0. apply rsum_zero. intros c Hc. rewrite !decide_False by lia. apply weigh_0.
Qed.
(** The sum over all cells: every source, boundary face and perforation once. *)
Theorem C47_transport_total W rates ts ts' : consistent → wells_fit W rates → compute_transport_source g src flux frac (Some W) rates ts = Some ts' →
  total ts' = rsum (λ c, weigh frac (val src c)) (seq 0 (u_nc g)) + rsum (λ f, weigh frac (inflow f)) (seq 0 (u_nf g)) + rsum (λ wp, perf_source W rates wp.1 wp.2) (perforations W).
Proof using Hrows Hnc Hfaces Hfc Hflux Hsrc.
  intros HC HW E. destruct (C47_transport W rates HW ts) as (t & E' & L & H). rewrite E in E'. injection E' as <-. unfold total. rewrite L.
  rewrite (rsum_ext _ (λ c, weigh frac (val src c) + rsum (λ f, weigh frac (entering g flux c f)) (default [] (rows !! c)) + rsum (λ wp, if decide (w_cells W !! wp.2 = Some (Z.of_nat c)) then perf_source W rates wp.1 wp.2 else 0) (perforations W))).
  2: { intros c Hc. apply elem_of_seq in Hc. destruct (lookup_lt_is_Some_2 rows c) as [r Hr]; [lia|]. rewrite (val_eq _ _ _ (H c r Hr)), Hr. done. }
  rewrite rsum_plus, rsum_plus. rewrite C47_boundary by done. f_equal. rewrite rsum_swap. apply rsum_ext. intros [w p] Hwp. cbn [fst snd]. destruct HW as (_ & _ & HP).
  destruct (HP w p Hwp) as ((d & -> & Hd) & _). rewrite (rsum_ext _ (λ c, if decide (c = d) then perf_source W rates w p else 0)).
  - apply (rsum_single (λ _, perf_source W rates w p) d); [apply NoDup_seq|apply elem_of_seq; lia].
  - intros c _. case_decide as Hc; case_decide as Hc'; try done; exfalso; [injection Hc; lia|apply Hc; congruence].
Qed.
End transport.
Print Assumptions C47_transport_cells.
Print Assumptions C47_transport.
Print Assumptions C47_boundary.
Print Assumptions C47_transport_total.

(** Two cells in a row, a well in the second. *)
Definition line2 : ugrid := UGrid 2 3 [0; 2; 4]%nat [0; 1; 1; 2]%nat [-1; 0; 0; 1; 1; -1]%Z.
Definition well2 : @wells R unit := Wells 1 2 [INJECTOR] [0] [3/4; 1/4] [0; 1]%nat [1%Z] [1] [None] [None] 1 1.
Lemma line2_rows : holds_rows (u_facepos line2) (u_cellfaces line2) [[0; 1]; [1; 2]]%nat.
Proof. exact (starts_holds [[0; 1]; [1; 2]]%nat). Qed.
Lemma line2_faces c r f : ([[0; 1]; [1; 2]]%nat : list (list nat)) !! c = Some r → f ∈ r → (f < u_nf line2)%nat.
Proof.
  intros E Hf. destruct c as [|[|c]]; [| |done]; injection E as <-; repeat (apply elem_of_cons in Hf as [->|Hf]; [cbn; lia|]); by apply elem_of_nil in Hf.
Qed.
Lemma line2_consistent : consistent line2 [[0; 1]; [1; 2]]%nat.
Proof.
  split; [|split].
  - intros [|[|c]] r E; [| |done]; injection E as <-; apply (bool_decide_unpack _); by vm_compute.
  - intros f k a Hf Hk E. cbn in Hf. destruct f as [|[|[|f]]]; [| | |lia]; (destruct k as [|[|k]]; [| |lia]); cbn in E; injection E as <-; cbn; lia.
  - intros c r f E Hf. cbn in Hf. destruct c as [|[|c]]; [| |done]; injection E as <-; (destruct f as [|[|[|f]]]; [| | |lia]); apply (bool_decide_unpack _); by vm_compute.
Qed.
Lemma well2_fit : wells_fit line2 well2 [4].
Proof.
  split; [done|]. split. { intros [|[|w]] Hw; [by eexists|by eexists|cbn in Hw; lia]. }
  intros w p Hwp. cbn in Hwp. apply elem_of_list_singleton in Hwp. injection Hwp as -> ->. split; [exists 1%nat; split; [done|cbn; lia]|]. split; [cbn; lia|].
  exists INJECTOR. split; [done|]. intros _ _. exists (3/4), (1/4). split; [done|]. split; [done|]. replace (3 / 4 + 1 / 4 - 1) with 0 by field. rewrite Rabs_R0. lra.
Qed.
Ltac decs := repeat match goal with |- context [decide ?P] =>
  let D := fresh in destruct (decide P) as [D|D]; [try (exfalso; first [discriminate D | lia])|try (exfalso; apply D; first [reflexivity | lia])] end.
Example C47_transport_case : ∃ ts, compute_transport_source line2 [0; 0] [1; 1; 5] (1/2) (Some well2) [4] [] = Some ts ∧ ts !! 0%nat = Some (1/2) ∧ ts !! 1%nat = Some (-2) ∧ total ts = -3/2.
Proof.
  destruct (C47_transport line2 [0; 0] [1; 1; 5] (1/2) _ line2_rows eq_refl line2_faces eq_refl eq_refl eq_refl well2 [4] well2_fit []) as (ts & E & L & H).
  exists ts. split; [done|].
  assert (∀ x, 0 < x → weigh (1/2) x = 1/2 * x) as Hw1 by (intros x Hx; unfold weigh; destruct (Rlt_dec 0 x); lra).
  assert (∀ x, x < 0 → weigh (1/2) x = x) as Hw2 by (intros x Hx; unfold weigh; destruct (Rlt_dec 0 x); lra).
  assert (ts !! 0%nat = Some (1/2)) as H0.
  { rewrite (H 0%nat _ eq_refl). unfold cell_source, entering, val. cbn. decs. unfold Datatypes.id. rewrite !weigh_0, Hw1 by lra. f_equal. lra. }
  assert (ts !! 1%nat = Some (-2)) as H1.
  { rewrite (H 1%nat _ eq_refl). unfold cell_source, entering, perf_source, val. cbn. decs. unfold Datatypes.id. rewrite !weigh_0, Hw2 by lra. destruct (Rlt_dec 0 4); [|lra]. f_equal. lra. }
  split; [done|]. split; [done|]. cbn in L. destruct ts as [|a [|b [|? ?]]]; try done. injection H0 as ->. injection H1 as ->. unfold total, val. cbn. lra.
Qed.
(** A cell with equal inflow of water and outflow gets no source at all: the two
    cannot be told apart from the sum (the documentation interprets the result
    by sign). *)
Theorem C47_mixed_refuted : ∃ ts, compute_transport_source (name_t := unit) line2 [0; 1] [0; 0; 1] 1 None [] [] = Some ts ∧ ts !! 1%nat = Some 0 ∧ entering line2 [0; 0; 1] 1 2 = -1.
Proof.
  destruct (C47_transport_cells (N := unit) line2 [0; 1] [0; 0; 1] 1 _ line2_rows eq_refl line2_faces eq_refl eq_refl eq_refl [] []) as (ts & E & L & H).
  exists ts. split; [done|]. split; [|unfold entering, val; cbn; decs; unfold Datatypes.id; lra]. rewrite (H 1%nat _ eq_refl). unfold cell_source, entering, val. cbn. decs. unfold Datatypes.id, weigh.
  destruct (Rlt_dec 0 1); [|lra]. destruct (Rlt_dec 0 0); [lra|]. destruct (Rlt_dec 0 (- (1))); [lra|]. f_equal. lra.
Qed.
(** What a producer injects is not counted. *)
Theorem C47_crossflow_refuted : ∃ ts, compute_transport_source line2 [0; 0] [0; 0; 0] 1 (Some (Wells 1 2 [PRODUCER] [0] [3/4; 1/4] [0; 1]%nat [1%Z] [1] [None] [None] 1 1 : @wells R unit)) [4] [] = Some ts ∧ total ts = 0.
Proof.
  set (W := Wells 1 2 _ _ _ _ _ _ _ _ _ _).
  assert (wells_fit line2 W [4]) as HW.
  { split; [done|]. split. { intros [|[|w]] Hw; [by eexists|by eexists|cbn in Hw; lia]. }
    intros w p Hwp. cbn in Hwp. apply elem_of_list_singleton in Hwp. injection Hwp as -> ->. split; [exists 1%nat; split; [done|cbn; lia]|]. split; [cbn; lia|]. by exists PRODUCER. }
  destruct (C47_transport line2 [0; 0] [0; 0; 0] 1 _ line2_rows eq_refl line2_faces eq_refl eq_refl eq_refl W [4] HW []) as (ts & E & _).
  exists ts. split; [done|]. rewrite (C47_transport_total line2 [0; 0] [0; 0; 0] 1 _ line2_rows eq_refl line2_faces eq_refl eq_refl eq_refl W [4] [] ts line2_consistent HW E).
  unfold inflow, perf_source, val. cbn. decs. unfold Datatypes.id. rewrite Ropp_0, !weigh_0. destruct (Rlt_dec 0 4); lra.
Qed.
Print Assumptions C47_mixed_refuted.
Print Assumptions C47_crossflow_refuted.
