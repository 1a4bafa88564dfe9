(** Consequences of solving the assembled system. *)
From Coq Require Import Reals Lra.
From stdpp Require Import sorting.
From Verif Require Import Base LoopModel LoopProof CsrSpec CsrModel CsrProof CsrProps GridModel GridSpec TableModel TofSpec TofProof
  AccModel AccProof HalfProof WellsModel IfsModel IfsSpec IfsProof IfsOps IfsBal IfsSol.
Local Open Scope R_scope.
Unset Default Proof Using.

Section eqs.
Context {name_t : Type}.
Context (bsearch : nat → list nat → option nat) (Hbs : bsearch_contract bsearch).
Context (g : ugrid) (cf : list (list nat)) (Hg : grid_ok g cf).
Context (A : csr) (wrows : list (list nat)) (ja : list nat) (rows : list (list nat)) (Hp : pattern g A wrows ja rows).
Context (trans gpress : list R) (Ht : length trans = u_nf g) (Hgp : length gpress = length (u_cellfaces g)).
Context (F : option (forces name_t)) (ds : list demand) (l : list bcitem) (HF : forces_ok g wrows F ds l).
Notation nc := (u_nc g).
Notation T f := (default 0 (trans !! f)).
Notation opsF G := (opsF g cf wrows trans F ds l G).
Notation wopsF := (wopsF g wrows F ds).
Notation sopsF := (sopsF g F).
Notation bopsF G := (bopsF g trans l G).
Notation gravity := (gravity g gpress).
Notation fops G := (concat (map (face_ops g trans G) (halves 0 0 cf))).

Lemma ops_cols ops : Forall (valid rows) ops → ∀ i j v, OA i j v ∈ ops → (j < a_m A)%nat.
Proof.
  intros Hv i j v Hin. rewrite Forall_forall in Hv. specialize (Hv _ Hin). cbn in Hv.
  eapply stored_lt2; [done|done|apply (pt_wells _ _ _ _ _ Hp)|done].
Qed.
Lemma ops_rows ops : Forall (valid rows) ops → ∀ o, o ∈ ops → match o with OA i _ _ => (i < a_m A)%nat | OB k _ => (k < a_m A)%nat end.
Proof.
  intros Hv o Hin. rewrite Forall_forall in Hv. specialize (Hv _ Hin). destruct o; cbn in Hv.
  - by eapply stored_lt.
  - by rewrite (pt_len _ _ _ _ _ Hp) in Hv.
Qed.
Lemma stored00 : (0 < nc)%nat → stored rows 0 0.
Proof. intros H. eapply stored_diag; [done|]. rewrite (pt_m _ _ _ _ _ Hp). lia. Qed.

Notation vec x := (λ k, default 0 (x !! k)).
(** [d] is added to the first diagonal element. *)
Lemma solves_res sa b x ops d : Forall (valid rows) ops → (0 < nc)%nat →
  (∀ i j, mat A sa i j = oa ops i j + (if decide (0%nat = i ∧ 0%nat = j) then d else 0)) →
  (∀ k, (k < a_m A)%nat → b !! k = Some (ob ops k)) →
  solves A sa b x → ∀ i, (i < a_m A)%nat → rsum (res1 (vec x) i) ops = - (if decide (i = 0%nat) then d * default 0 (x !! 0%nat) else 0).
Proof.
  intros Hv Hnc HA HB Hs i Hi. specialize (Hs i Hi). rewrite (HB i Hi) in Hs. change (default 0 (Some (ob ops i))) with (ob ops i) in Hs.
  assert (Hv' : Forall (valid rows) (ops ++ [OA 0 0 d])).
  { apply Forall_app. split; [done|]. apply Forall_cons. split; [by apply stored00|done]. }
  pose proof (res_sum (vec x) i (a_m A) (ops ++ [OA 0 0 d]) (ops_cols _ Hv')) as E.
  rewrite rsum_app in E. cbn [rsum res1] in E.
  rewrite (rsum_ext _ (λ j, mat A sa i j * default 0 (x !! j))) in E.
  2: { intros j _. rewrite HA, oa_app. unfold oa at 2. cbn [rsum oa1]. f_equal. lra. }
  rewrite Hs, ob_app in E. unfold ob at 3 in E. cbn [rsum ob1] in E. rewrite (decide_ext (i = 0%nat) (0%nat = i)) by lia. destruct (decide (0%nat = i)); lra.
Qed.

Definition perfF (X : nat → R) (c : nat) : R :=
  match F with
  | Some F => match F_W F, F_totmob F, F_wdp F with
              | Some W, Some mt, Some wdp => rsum (λ wi, if decide (pc W wi.2 = c) then pflux g W ds mt wdp X wi.1 wi.2 else 0) (halves 0 0 wrows)
              | _, _, _ => 0
              end
  | None => 0
  end.
Lemma bc_or : ∃ bc, l = [] ∨ bc_ok g bc l.
Proof.
  destruct F as [F'|]; [|destruct HF as [_ ->]; exists (FlowBC 0 [] [] [] []); by left].
  destruct HF as (_ & Hb & _). destruct (F_bc F') as [bc|]; [exists bc; by right|exists (FlowBC 0 [] [] [] []); by left].
Qed.
Lemma res_cell G X ff c r : gravity G → fluxes g trans G X l ff → cf !! c = Some r →
  rsum (res1 X c) (opsF G) = rsum (out g ff c) r - source F c - perfF X c.
Proof.
  intros (HG1 & HG2 & HG3) Hff Hr. destruct bc_or as [bc Hbc]. unfold IfsSol.opsF. rewrite !rsum_app.
  rewrite (res_face_ops g cf Hg trans G X c r Hr). rewrite (out_sum g cf Hg trans G HG2 X bc l ff c r Hff Hbc Hr).
  unfold IfsSol.bopsF. rewrite (res_bops g trans G).
  assert (Hc : (c < nc)%nat) by (rewrite <- (ok_cells _ _ Hg); by eapply lookup_lt_Some).
  assert (rsum (res1 X c) wopsF = - perfF X c) as ->.
  { unfold IfsSol.wopsF, perfF. destruct F as [F'|]; [|cbn; lra]. destruct HF as (HW & _).
    destruct (F_W F') as [W|]; [|cbn; lra]. destruct HW as (Hw & mt & wdp & -> & -> & Hmt & Hwdp). by eapply res_wops_cell. }
  assert (rsum (res1 X c) sopsF = - source F c) as ->.
  { unfold IfsSol.sopsF, source. destruct F as [F'|]; [|cbn; lra]. destruct (F_src F'); [|cbn; lra]. rewrite res_sops. by rewrite decide_True. }
  lra.
Qed.
(** Rows of wells. *)
Lemma res_well G X W mt wdp F' w : F = Some F' → F_W F' = Some W → F_totmob F' = Some mt → F_wdp F' = Some wdp → (w < length wrows)%nat →
  rsum (res1 X (nc + w)) (opsF G) = 
  match default Shut (ds !! w) with
  | Shut => X (nc + w)%nat * rsum (PT W mt) (well_row wrows w)
  | Pressure bhp => (X (nc + w)%nat - bhp) * rsum (PT W mt) (well_row wrows w)
  | Rate q => rsum (pflux g W ds mt wdp X w) (well_row wrows w) - q
  | Unsupported => 0
  end.
Proof.
  intros EF EW Emt Ewdp Hlt. pose proof HF as H. rewrite EF in H. destruct H as (HW & Hb & _). rewrite EW, Emt, Ewdp in HW.
  destruct HW as (Hw & mt' & wdp' & [= <-] & [= <-] & Hmt & Hwdp). unfold IfsSol.opsF. rewrite !rsum_app.
  rewrite (res_face_ops_well g cf Hg) by lia. unfold IfsSol.bopsF, IfsSol.wopsF, IfsSol.sopsF. rewrite EF, EW, Emt, Ewdp.
  rewrite (res_wops_well g wrows W ds Hw mt wdp Hmt Hwdp X w Hlt).
  rewrite (res_bops g trans G). rewrite (rsum_zero _ (bcs l)).
  2: { intros [[ty v] f] He. cbn [snd]. rewrite decide_False; [done|].
       destruct (F_bc F') as [bc|]; [|rewrite Hb in He; by apply elem_of_nil in He].
       destruct (bc_ext g cf Hg bc l Hb _ _ _ He) as (_ & _ & _ & _ & Hc & _). lia. }
  assert (rsum (res1 X (nc + w)) match F_src F' with Some src => src_ops g src | None => [] end = 0) as ->.
  { destruct (F_src F'); [|done]. rewrite res_sops. by rewrite decide_False by lia. }
  lra.
Qed.
Lemma rsum_nonneg_zero {B} (h : B → R) k : (∀ x, x ∈ k → 0 <= h x) → rsum h k = 0 → ∀ x, x ∈ k → h x = 0.
Proof.
  induction k as [|y k IH]; intros Hh Hs x Hx; [by apply elem_of_nil in Hx|].
  cbn [rsum] in Hs. assert (0 <= rsum h k) by (apply rsum_nonneg; intros; apply Hh; by right). pose proof (Hh y ltac:(left)).
  apply elem_of_cons in Hx as [->|Hx]; [lra|]. apply IH; [intros; apply Hh; by right|lra|done].
Qed.
Lemma PT_nonneg (W : @wells R name_t) mt i : Forall (Rle 0) mt → Forall (Rle 0) (w_WI W) → 0 <= PT W mt i.
Proof.
  intros H1 H2. unfold PT. apply Rmult_le_pos.
  - destruct (mt !! pc W i) as [m|] eqn:E; cbn; [|lra]. rewrite Forall_forall in H1. apply H1. by eapply elem_of_list_lookup_2.
  - destruct (w_WI W !! i) as [m|] eqn:E; cbn; [|lra]. rewrite Forall_forall in H2. apply H2. by eapply elem_of_list_lookup_2.
Qed.
(** The reported perforation fluxes are those in the equations. *)
Lemma pflux_reported G (x : list R) W mt wdp F' w i :
  F = Some F' → F_W F' = Some W → F_totmob F' = Some mt → F_wdp F' = Some wdp → nonneg_wells F → forallb supported ds = true →
  rsum (res1 (vec x) (nc + w)) (opsF G) = 0 → (w, i) ∈ halves 0 0 wrows →
  match ds !! w with Some Shut => 0 | _ => PT W mt i * (default 0 (x !! (nc + w)%nat) + PD wdp i - default 0 (x !! pc W i)) end
  = pflux g W ds mt wdp (vec x) w i.
Proof.
  intros EF EW Emt Ewdp Hnn Hsup Hres Hi. assert (Hlt : (w < length wrows)%nat).
  { apply halves_elem in Hi as (k & r & b & -> & Hr & _). by apply lookup_lt_Some in Hr. }
  rewrite (res_well G _ W mt wdp F' w EF EW Emt Ewdp Hlt) in Hres. destruct (Hnn F' W mt EF EW Emt) as [N1 N2].
  unfold pflux. pose proof HF as H. rewrite EF in H. destruct H as (HW & _). rewrite EW in HW. destruct HW as (Hw & _).
  destruct (lookup_lt_is_Some_2 ds w) as [d Hd]; [rewrite (wk_len _ _ _ _ Hw); lia|]. rewrite Hd in *. change (default Shut (Some d)) with d in *.
  destruct d as [|bhp|q|]; try done.
  - assert (PT W mt i * (default 0 (x !! (nc + w)%nat) - bhp) = 0); [|lra].
    destruct (Rmult_integral _ _ Hres) as [E|E]; [rewrite E; lra|].
    rewrite (rsum_nonneg_zero _ _ (λ i _, PT_nonneg W mt i N1 N2) E i); [lra|]. by apply well_row_in.
  - exfalso. rewrite forallb_forall in Hsup. specialize (Hsup Unsupported). rewrite <- elem_of_list_In in Hsup.
    discriminate Hsup. by eapply elem_of_list_lookup_2.
Qed.
Lemma inflow_perfF G (x wf : list R) c : nonneg_wells F → forallb supported ds = true →
  (∀ w, (w < length wrows)%nat → rsum (res1 (vec x) (nc + w)) (opsF G) = 0) → length wf = length (concat wrows) → (c < nc)%nat →
  match F with
  | Some F => match F_W F, F_totmob F, F_wdp F with
              | Some W, Some mt, Some wdp =>
                (∀ w i, (w, i) ∈ halves 0 0 wrows → wf !! i =
                  Some (match ds !! w with Some Shut => 0 | _ => PT W mt i * (default 0 (x !! (nc + w)%nat) + PD wdp i - default 0 (x !! pc W i)) end))
              | _, _, _ => True
              end
  | None => True
  end → inflow F wf c = perfF (vec x) c.
Proof.
  intros Hnn Hsup Hres Hlf Hc. unfold inflow, perfF. case_eq F; [|done]. intros F' EF'.
  destruct (F_W F') as [W|] eqn:EW; [|done]. pose proof HF as H. rewrite EF' in H. destruct H as (HW & _). rewrite EW in HW.
  destruct HW as (Hw & mt & wdp & Emt & Ewdp & Hmt & Hwdp). rewrite Emt, Ewdp. intros Hwf.
  rewrite Hlf, <- rsum_halves_snd. apply rsum_ext. intros [w i] Hi. cbn [fst snd].
  pose proof Hi as Hi2. eapply perf_data in Hi2 as (r & c' & wi & Hr & _ & Hlc & Hcell & Epc & _); [|done..].
  rewrite Hcell, Epc. rewrite (decide_ext (Some (Z.of_nat c') = Some (Z.of_nat c)) (c' = c)) by (split; [intros [= E]; lia|by intros ->]).
  destruct (decide (c' = c)); [|done]. rewrite (Hwf w i Hi). cbn [default from_option]. unfold Datatypes.id.
  eapply (pflux_reported G x W mt wdp F' w i); try done. apply Hres. by apply lookup_lt_Some in Hr.
Qed.

(** ** The level-free case *)
Lemma free_spec : free ds l = true ↔ level_free ds l.
Proof.
  unfold free, level_free. rewrite andb_true_iff, !forallb_forall. split.
  - intros [H1 H2]. split.
    + intros d Hd. rewrite elem_of_list_In in Hd. specialize (H2 d Hd). by destruct d.
    + intros it Hit. rewrite elem_of_list_In in Hit. specialize (H1 it Hit). by destruct it.1.1.
  - intros [H1 H2]. split.
    + intros it Hit. rewrite <- elem_of_list_In in Hit. specialize (H2 it Hit). by destruct it.1.1.
    + intros d Hd. rewrite <- elem_of_list_In in Hd. specialize (H1 d Hd). by destruct d.
Qed.
Lemma tot_opsF G X : gravity G → free ds l = true → (∀ w, (w < length wrows)%nat → rsum (res1 X (nc + w)) (opsF G) = 0) →
  rsum (tot1 X) (opsF G) = - total_in g F ds l.
Proof.
  intros (HG1 & HG2 & HG3) Hfree Hres. unfold free in Hfree. apply andb_true_iff in Hfree as [Hl Hd].
  unfold IfsSol.opsF. rewrite !rsum_app. rewrite (tot_face_ops g cf Hg trans G HG2).
  assert (rsum (tot1 X) wopsF = - rsum (λ d, match d with Rate q => q | _ => 0 end) ds) as ->.
  { unfold IfsSol.wopsF. case_eq F; [intros F' EF'|intros EF'; pose proof HF as H; rewrite EF' in H; destruct H as [-> _]; cbn; lra].
    destruct (F_W F') as [W|] eqn:EW; [|pose proof HF as H; rewrite EF' in H; destruct H as (H & _); rewrite EW in H; rewrite H; cbn; lra].
    pose proof HF as H. rewrite EF' in H. destruct H as (HW & _). rewrite EW in HW.
    destruct HW as (Hw & mt & wdp & Emt & Ewdp & Hmt & Hwdp). rewrite Emt, Ewdp.
    rewrite (tot_wops g wrows W ds Hw mt wdp Hmt Hwdp X Hd). rewrite rsum_zero; [unfold rate_of; lra|].
    intros w Hlt%elem_of_seq. specialize (Hres w ltac:(lia)). rewrite (res_well G X W mt wdp F' w EF' EW Emt Ewdp) in Hres by lia.
    destruct (default Shut (ds !! w)); [|done..]. exact Hres. }
  assert (rsum (tot1 X) sopsF = - rsum (source F) (seq 0 nc)) as ->.
  { unfold IfsSol.sopsF, source. destruct F as [F'|]; [|cbn; rewrite rsum_zero; [lra|done]].
    destruct (F_src F'); [|cbn; rewrite rsum_zero; [lra|done]]. by rewrite tot_sops. }
  destruct bc_or as [bc Hbc]. assert (rsum (tot1 X) (bopsF G) = - rsum flux_of l) as ->.
  { destruct Hbc as [E|Hbc].
    - unfold IfsSol.bopsF. rewrite E. cbn. lra.
    - unfold IfsSol.bopsF. by eapply tot_bops. }
  unfold total_in, flux_of. lra.
Qed.

(** ** Symmetry *)
Lemma oa_concat {B} (h : B → list op) k i j : oa (concat (map h k)) i j = rsum (λ b, oa (h b) i j) k.
Proof. unfold oa. by rewrite rsum_concat, rsum_map. Qed.
Lemma neighbour_lt c f : (c < nc)%nat → (∃ a b, face_between g f a b ∧ (a = Z.of_nat c ∨ b = Z.of_nat c)) → (neighbour g c f < Z.of_nat nc)%Z.
Proof.
  intros Hc (a & b & Hab & _). pose proof (ok_range _ _ Hg _ _ _ Hab) as (? & ? & _). destruct Hab as [Ea Eb].
  unfold neighbour. rewrite Ea, Eb. destruct (decide _); lia.
Qed.
Lemma rsum_sides_swap (h k : nat → nat → R) :
  (∀ f a b, face_between g f (Z.of_nat a) (Z.of_nat b) → a ≠ b → h a f + h b f = k a f + k b f) →
  (∀ f c, face_between g f (Z.of_nat c) (-1) ∨ face_between g f (-1) (Z.of_nat c) → h c f = k c f) →
  rsum (λ ci, h ci.1 (default 0%nat (u_cellfaces g !! ci.2))) (halves 0 0 cf) = rsum (λ ci, k ci.1 (default 0%nat (u_cellfaces g !! ci.2))) (halves 0 0 cf).
Proof.
  intros H2 H1. pose proof (rsum_sides_zero g cf Hg (λ c f, h c f + - k c f)) as E. cbn beta in E.
  rewrite rsum_plus, rsum_opp in E. enough (rsum (λ ci, h ci.1 (default 0%nat (u_cellfaces g !! ci.2))) (halves 0 0 cf) + - rsum (λ ci, k ci.1 (default 0%nat (u_cellfaces g !! ci.2))) (halves 0 0 cf) = 0) by lra.
  apply E.
  - intros f a b Hf Hab. specialize (H2 f a b Hf Hab). lra.
  - intros f c Hf. specialize (H1 f c Hf). lra.
Qed.
Lemma face_ops_oa G ci i j : oa (face_ops g trans G ci) i j =
  let f := default 0%nat (u_cellfaces g !! ci.2) in let o := neighbour g ci.1 f in
  if decide (0 <= o)%Z then (if decide (ci.1 = i ∧ ci.1 = j) then T f else 0) - (if decide (ci.1 = i ∧ Z.to_nat o = j) then T f else 0) else 0.
Proof.
  unfold oa, face_ops. cbn [rsum oa1]. destruct (decide (0 <= _)%Z); cbn [rsum oa1].
  - destruct (decide (ci.1 = i ∧ ci.1 = j)), (decide (ci.1 = i ∧ _)); lra.
  - lra.
Qed.
Lemma face_oa_sym G i j : oa (fops G) i j = oa (fops G) j i.
Proof.
  rewrite !oa_concat.
  set (h := λ i j c f, if decide (0 <= neighbour g c f)%Z then (if decide (c = i ∧ c = j) then T f else 0) - (if decide (c = i ∧ Z.to_nat (neighbour g c f) = j) then T f else 0) else 0).
  assert (E : ∀ i j, rsum (λ ci, oa (face_ops g trans G ci) i j) (halves 0 0 cf) = rsum (λ ci, h i j ci.1 (default 0%nat (u_cellfaces g !! ci.2))) (halves 0 0 cf)).
  { intros i' j'. apply rsum_ext. intros ci _. apply face_ops_oa. }
  rewrite !E. apply (rsum_sides_swap (h i j) (h j i)); unfold h.
  - intros f a b Hf Hab. destruct (neighbour_fst g _ _ _ Hf) as [-> _]. destruct (neighbour_snd g _ _ _ Hf ltac:(lia)) as [-> _].
    rewrite !decide_True by lia. rewrite !Nat2Z.id.
    rewrite (decide_ext (a = i ∧ a = j) (a = j ∧ a = i)), (decide_ext (b = i ∧ b = j) (b = j ∧ b = i)) by lia.
    rewrite (decide_ext (a = i ∧ b = j) (b = j ∧ a = i)), (decide_ext (b = i ∧ a = j) (a = j ∧ b = i)) by lia.  repeat (destruct (decide _)); try lra; lia.
  - intros f c [Hf|Hf].
    + destruct (neighbour_fst g _ _ _ Hf) as [-> _]. by rewrite !decide_False by lia.
    + destruct (neighbour_snd g _ _ _ Hf ltac:(lia)) as [-> _]. by rewrite !decide_False by lia.
Qed.
Lemma oa_sym G i j : oa (opsF G) i j = oa (opsF G) j i.
Proof.
  unfold IfsSol.opsF. rewrite !oa_app. rewrite (face_oa_sym G i j). f_equal. f_equal; [|f_equal].
  - unfold IfsSol.wopsF. destruct F as [F'|]; [|done]. destruct (F_W F') as [W|]; [|done]. destruct (F_totmob F') as [mt|]; [|done].
    destruct (F_wdp F') as [wdp|]; [|done]. unfold all_ops. unfold oa. rewrite !(rsum_imap _ _ _ Shut). apply rsum_ext. intros w _.
    rewrite !(well_ops_sum g wrows W mt wdp). f_equal.
    apply rsum_ext. intros k _. unfold perf_ops. destruct (default Shut _); cbn [rsum oa1]; [..|done].
    + f_equal. by rewrite (decide_ext (_ = i ∧ _ = j) ((nc + w)%nat = j ∧ (nc + w)%nat = i)) by lia.
    + rewrite (decide_ext (_ = i ∧ _ = j) (pc W k = j ∧ pc W k = i)) by lia. 
      by rewrite (decide_ext ((nc + w)%nat = i ∧ (nc + w)%nat = j) ((nc + w)%nat = j ∧ (nc + w)%nat = i)) by lia.
    + rewrite (decide_ext (pc W k = i ∧ pc W k = j) (pc W k = j ∧ pc W k = i)) by lia.
      rewrite (decide_ext ((nc + w)%nat = i ∧ (nc + w)%nat = j) ((nc + w)%nat = j ∧ (nc + w)%nat = i)) by lia.
      rewrite (decide_ext (pc W k = i ∧ (nc + w)%nat = j) ((nc + w)%nat = j ∧ pc W k = i)) by lia.
      rewrite (decide_ext ((nc + w)%nat = i ∧ pc W k = j) (pc W k = j ∧ (nc + w)%nat = i)) by lia. lra.
  - unfold IfsSol.bopsF. rewrite !oa_concat. apply rsum_ext. intros [[ty v] f] _. unfold oa, bc_ops. cbn [fst snd].
    destruct ty; cbn [rsum oa1]; [done| |done].
    by rewrite (decide_ext (bcell g f = i ∧ bcell g f = j) (bcell g f = j ∧ bcell g f = i)) by lia.
  - unfold IfsSol.sopsF. destruct F as [F'|]; [|done]. destruct (F_src F'); [|done]. unfold src_ops, oa. by rewrite !rsum_map.
Qed.

(** ** Energy *)
Definition en1 (X : nat → R) (o : op) : R := match o with OA i j v => X i * v * X j | OB _ _ => 0 end.
Lemma energy_sum X ops : Forall (valid rows) ops →
  rsum (λ i, X i * rsum (λ j, oa ops i j * X j) (seq 0 (a_m A))) (seq 0 (a_m A)) = rsum (en1 X) ops.
Proof.
  intros Hv. rewrite (rsum_ext _ (λ i, rsum (λ o, X i * (res1 X i o + ob1 i o)) ops)).
  2: { intros i _. rewrite rsum_scale. f_equal. rewrite rsum_plus. rewrite <- (res_sum X i (a_m A) ops (ops_cols _ Hv)). unfold ob. lra. }
  rewrite rsum_swap. apply rsum_ext. intros o Ho. pose proof (ops_rows _ Hv o Ho) as Hr. destruct o as [i j v|k v]; cbn [res1 ob1 en1].
  - rewrite (rsum_ext _ (λ i', if decide (i' = i) then X i' * v * X j else 0)).
    + apply (rsum_single (λ i', X i' * v * X j)); [apply NoDup_seq|apply elem_of_seq; lia].
    + intros i' _. rewrite (decide_ext (i = i') (i' = i)) by lia. destruct (decide _); lra.
  - apply rsum_zero. intros i _. destruct (decide _); lra.
Qed.
Definition eface (X : nat → R) (f : nat) : R :=
  match u_facecells g !! (2 * f)%nat, u_facecells g !! (2 * f + 1)%nat with
  | Some a, Some b => if bool_decide (0 <= a)%Z && bool_decide (0 <= b)%Z then T f * ((X (Z.to_nat a) - X (Z.to_nat b)) * (X (Z.to_nat a) - X (Z.to_nat b))) else 0
  | _, _ => 0
  end.
Definition eperf (X : nat → R) (wi : nat * nat) : R :=
  match F with
  | Some F => match F_W F, F_totmob F, F_wdp F with
    | Some W, Some mt, Some wdp =>
      let xc := X (pc W wi.2) in let xw := X (nc + wi.1)%nat in
      PT W mt wi.2 * match default Shut (ds !! wi.1) with Shut => xw * xw | Pressure _ => xc * xc + xw * xw | Rate _ => (xc - xw) * (xc - xw) | Unsupported => 0 end
    | _, _, _ => 0
    end
  | None => 0
  end.
Definition ebc (X : nat → R) (e : bctype * R * nat) : R :=
  match e.1.1 with BC_PRESSURE => T e.2 * (X (bcell g e.2) * X (bcell g e.2)) | _ => 0 end.
Lemma energy_ops G X : rsum (en1 X) (opsF G) = rsum (eface X) (seq 0 (u_nf g)) + rsum (eperf X) (halves 0 0 wrows) + rsum (ebc X) (bcs l).
Proof.
  unfold IfsSol.opsF. rewrite !rsum_app.
  assert (rsum (en1 X) (fops G) = rsum (eface X) (seq 0 (u_nf g))) as ->.
  { rewrite rsum_concat, rsum_map. rewrite (rsum_by_face g cf Hg). apply rsum_ext. intros f Hf%elem_of_seq.
    set (h := λ ci : nat * nat, if decide (0 <= neighbour g ci.1 f)%Z then T f * (X ci.1 * (X ci.1 - X (Z.to_nat (neighbour g ci.1 f)))) else 0).
    rewrite (rsum_ext _ (λ ci, if decide (u_cellfaces g !! ci.2 = Some f) then h ci else 0)).
    2: { intros ci _. destruct (decide _) as [E|]; [|done]. unfold face_ops, h. rewrite E. cbn [default from_option]. unfold Datatypes.id. cbn [rsum en1].
         destruct (decide _); cbn [rsum en1]; lra. }
    destruct (face_data g cf Hg f ltac:(lia)) as (a & b & Hab). pose proof (ok_range _ _ Hg _ _ _ Hab) as (Ra & Rb & Rab).
    unfold eface. pose proof Hab as [-> ->].
    destruct (decide (a = -1)%Z) as [->|Ha]; [destruct (decide (b = -1)%Z) as [->|Hb]|destruct (decide (b = -1)%Z) as [->|Hb]].
    - cbn. apply rsum_zero. intros [c i] Hi. cbn [snd]. destruct (decide _) as [E|]; [|done].
      assert (half g c f i) as Hh by (by apply (half_iff g cf Hg)).
      apply (half_cells g cf Hg) in Hh as (a & b & [E1 E2] & Hc). destruct Hab as [E3 E4]. rewrite E1 in E3. rewrite E2 in E4.
      injection E3 as ->. injection E4 as ->. lia.
    - cbn [bool_decide andb]. rewrite <- (Z2Nat.id b) in Hab by lia. destruct (half_exists g cf Hg (Z.to_nat b) f _ _ ltac:(lia) Hab ltac:(by right)) as [i Hi].
      rewrite (rsum_face_one g cf Hg h f _ _ _ i Hab ltac:(by right) Hi). unfold h. cbn [fst].
      destruct (neighbour_snd g _ _ _ Hab ltac:(lia)) as [-> _]. by rewrite decide_False by lia.
    - rewrite andb_false_r. rewrite <- (Z2Nat.id a) in Hab by lia. destruct (half_exists g cf Hg (Z.to_nat a) f _ _ ltac:(lia) Hab ltac:(by left)) as [i Hi].
      rewrite (rsum_face_one g cf Hg h f _ _ _ i Hab ltac:(by left) Hi). unfold h. cbn [fst].
      destruct (neighbour_fst g _ _ _ Hab) as [-> _]. by rewrite decide_False by lia.
    - rewrite !bool_decide_eq_true_2 by lia. cbn [andb]. rewrite <- (Z2Nat.id a), <- (Z2Nat.id b) in Hab by lia.
      destruct (half_exists g cf Hg (Z.to_nat a) f _ _ ltac:(lia) Hab ltac:(by left)) as [i Hi].
      destruct (half_exists g cf Hg (Z.to_nat b) f _ _ ltac:(lia) Hab ltac:(by right)) as [j Hj].
      rewrite (rsum_face_two g cf Hg h f _ _ i j Hab Hi Hj). unfold h. cbn [fst].
      assert (Z.of_nat (Z.to_nat a) ≠ Z.of_nat (Z.to_nat b)) by lia.
      destruct (neighbour_fst g _ _ _ Hab) as [-> _]. destruct (neighbour_snd g _ _ _ Hab ltac:(lia)) as [-> _].
      rewrite !decide_True by lia. rewrite !Nat2Z.id. lra. }
  assert (rsum (en1 X) wopsF = rsum (eperf X) (halves 0 0 wrows)) as ->.
  { unfold IfsSol.wopsF, eperf. destruct F as [F'|]; [|symmetry; by apply rsum_zero]. destruct HF as (HW & _).
    destruct (F_W F') as [W|]; [|symmetry; by apply rsum_zero]. destruct HW as (Hw & mt & wdp & -> & -> & Hmt & Hwdp).
    rewrite (wops_sum g wrows W ds Hw) by done.
    rewrite <- (rsum_wrows wrows (λ w i, PT W mt i * match default Shut (ds !! w) with Shut => X (nc + w)%nat * X (nc + w)%nat | Pressure _ => X (pc W i) * X (pc W i) + X (nc + w)%nat * X (nc + w)%nat
      | Rate _ => (X (pc W i) - X (nc + w)%nat) * (X (pc W i) - X (nc + w)%nat) | Unsupported => 0 end)).
    apply rsum_ext. intros w _. rewrite (well_ops_sum g wrows W mt wdp).
    assert (match default Shut (ds !! w) with Rate q => en1 X (OB (nc + w) q) | _ => 0 end = 0) as -> by (by destruct (default Shut _)).
    rewrite Rplus_0_r. apply rsum_ext. intros i _. unfold perf_ops. destruct (default Shut _); cbn [rsum en1]; lra. }
  assert (rsum (en1 X) (bopsF G) = rsum (ebc X) (bcs l)) as ->.
  { unfold IfsSol.bopsF. rewrite rsum_concat, rsum_map. apply rsum_ext. intros [[ty v] f] _. unfold bc_ops, ebc. cbn [fst snd]. destruct ty; cbn [rsum en1]; lra. }
  assert (rsum (en1 X) sopsF = 0) as ->; [|lra].
  unfold IfsSol.sopsF. destruct F as [F'|]; [|done]. destruct (F_src F'); [|done]. unfold src_ops. rewrite rsum_map. by apply rsum_zero.
Qed.
Lemma energy_nonneg X : Forall (Rle 0) trans → nonneg_wells F →
  (∀ f, f ∈ seq 0 (u_nf g) → 0 <= eface X f) ∧ (∀ wi, wi ∈ halves 0 0 wrows → 0 <= eperf X wi) ∧ (∀ e, e ∈ bcs l → 0 <= ebc X e).
Proof.
  intros Hnt Hnw. assert (HT : ∀ f, 0 <= T f).
  { intros f. destruct (trans !! f) as [t|] eqn:E; cbn; [|lra]. rewrite Forall_forall in Hnt. apply Hnt. by eapply elem_of_list_lookup_2. }
  split_and!.
  - intros f _. unfold eface. destruct (u_facecells g !! _) as [a|]; [|lra]. destruct (u_facecells g !! _) as [b|]; [|lra].
    destruct (_ && _); [|lra]. apply Rmult_le_pos; [done|]. apply Rle_0_sqr.
  - intros [w i] _. unfold eperf. case_eq F; [|intros; lra]. intros F' EF. destruct (F_W F') as [W|] eqn:EW; [|lra].
    destruct (F_totmob F') as [mt|] eqn:Emt; [|lra]. destruct (F_wdp F'); [|lra]. destruct (Hnw F' W mt EF EW Emt) as [N1 N2].
    cbn zeta. apply Rmult_le_pos; [by apply PT_nonneg|].
    pose proof (Rle_0_sqr (X (pc W (w, i).2))) as S1. pose proof (Rle_0_sqr (X (nc + (w, i).1)%nat)) as S2. unfold Rsqr in *.
    destruct (default Shut _); [lra|lra|apply Rle_0_sqr|lra].
  - intros e _. unfold ebc. destruct e.1.1; [lra| |lra]. apply Rmult_le_pos; [done|]. apply Rle_0_sqr.
Qed.
End eqs.
