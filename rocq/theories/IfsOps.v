(** The assembly as a list of changes. *)
From Coq Require Import Reals Lra.
From stdpp Require Import sorting.
From Verif Require Import Base LoopModel LoopProof CsrSpec CsrModel CsrProof CsrProps GridModel GridSpec TableModel TofSpec TofProof
  AccModel AccProof HalfProof WellsModel IfsModel IfsSpec IfsProof.
Local Open Scope R_scope.
Unset Default Proof Using.

Lemma vector_zero_ok n v : length v = n → vector_zero n v = Some (replicate n 0).
Proof.
  intros Hl. unfold vector_zero. destruct (for_loop_each (λ _ _, Some 0) (λ i v, upd v i 0) n v) as (v' & -> & Hl' & Hv).
  - intros i s Hi Hs. destruct (lookup_lt_is_Some_2 s i) as [x ->]; [lia|]. done.
  - done.
  - eauto.
  - f_equal. apply list_eq. intros i. destruct (decide (i < n)%nat) as [Hi|Hi].
    + destruct (lookup_lt_is_Some_2 v i) as [x Ex]; [lia|]. rewrite (Hv i x Ex). by rewrite lookup_replicate_2.
    + rewrite !lookup_ge_None_2; [done|rewrite replicate_length; lia|lia].
Qed.
Lemma mat_zero A n i j : mat A (replicate n 0) i j = 0.
Proof.
  unfold mat. destruct (a_ja A); [|done]. destruct (a_ia A !! i); [|done]. destruct (a_ia A !! S i); [|done].
  apply rsum_zero. intros p _. destruct (decide _); [|done]. destruct (replicate n 0 !! p) as [y|] eqn:E; [|done].
  apply lookup_replicate in E as [-> _]. done.
Qed.

Lemma ob_app l m k : ob (l ++ m) k = ob l k + ob m k.
Proof. apply rsum_app. Qed.
Lemma oa_app l m i j : oa (l ++ m) i j = oa l i j + oa m i j.
Proof. apply rsum_app. Qed.

Section ops.
Context {name_t : Type}.
Context (bsearch : nat → list nat → option nat) (Hbs : bsearch_contract bsearch).
Context (g : ugrid) (cf : list (list nat)) (Hg : grid_ok g cf).
Context (A : csr) (wrows : list (list nat)) (ja : list nat) (rows : list (list nat)) (Hp : pattern g A wrows ja rows).
Context (trans : list R) (Ht : length trans = u_nf g).
Notation idx i j := (elm_index bsearch i j A).
Notation exec := (exec bsearch A).
Notation stored := (stored rows).
Notation valid := (valid rows).
Notation nc := (u_nc g).
Notation T f := (default 0 (trans !! f)).

Lemma stored_iff i j : (i < a_m A)%nat → (stored i j ↔ coupled nc (face_pairs g) wrows i j).
Proof. clear Ht.
  intros Hi. unfold IfsProof.stored. split.
  - intros (r & Hr & Hj). by apply (pt_coup _ _ _ _ _ Hp i r Hr).
  - intros Hc. destruct (lookup_lt_is_Some_2 rows i) as [r Hr]; [rewrite (pt_len _ _ _ _ _ Hp); done|].
    exists r. split; [done|]. by apply (pt_coup _ _ _ _ _ Hp i r Hr).
Qed.
Lemma stored_diag i : (i < a_m A)%nat → stored i i.
Proof. clear Ht. intros Hi. apply stored_iff; [done|]. left. rewrite (pt_m _ _ _ _ _ Hp) in Hi. done. Qed.
Lemma face_pair_in f a b : face_between g f (Z.of_nat a) (Z.of_nat b) → (Some a, Some b) ∈ face_pairs g.
Proof. clear Ht.
  intros [Ha Hb]. unfold face_pairs. apply elem_of_list_fmap. exists f. rewrite Ha, Hb. split.
  - cbn [default from_option]. unfold Datatypes.id, opt_cell. rewrite !decide_True by lia. by rewrite !Nat2Z.id.
  - apply elem_of_seq. apply lookup_lt_Some in Ha. rewrite (ok_faces _ _ Hg) in Ha. lia.
Qed.
Lemma stored_face f a b : face_between g f (Z.of_nat a) (Z.of_nat b) → stored a b ∧ stored b a.
Proof. clear Ht.
  intros H. pose proof (ok_range _ _ Hg _ _ _ H) as (H1 & H2 & _). pose proof (pt_m _ _ _ _ _ Hp).
  pose proof (face_pair_in _ _ _ H). split; (apply stored_iff; [lia|]); right; [left|right; left]; done.
Qed.
Lemma stored_well w r c : wrows !! w = Some r → c ∈ r → (c < nc)%nat → stored c (nc + w) ∧ stored (nc + w) c.
Proof. clear Ht.
  intros Hw Hc Hlt. pose proof (pt_m _ _ _ _ _ Hp). pose proof (lookup_lt_Some _ _ _ Hw).
  split; (apply stored_iff; [lia|]); right; right; right; exists w, r; (split; [done|]); [left|right]; done.
Qed.
Lemma stored_idx i j : stored i j → ∃ p, idx i j = Some p.
Proof. clear Ht.
  intros (r & Hr & Hj).
  destruct (idx_pos bsearch Hbs A ja rows (pt_ja _ _ _ _ _ Hp) (pt_rows _ _ _ _ _ Hp) (λ i r H, proj1 (pt_coup _ _ _ _ _ Hp i r H)) i j r Hr Hj)
    as (_ & _ & p & _ & _ & -> & _). eauto.
Qed.
Lemma stored_lt i j : stored i j → (i < a_m A)%nat.
Proof. clear Ht. intros (r & Hr & _). apply lookup_lt_Some in Hr. by rewrite (pt_len _ _ _ _ _ Hp) in Hr. Qed.
Lemma stored_lt2 i j : (∀ w r c, wrows !! w = Some r → c ∈ r → (c < nc)%nat) → stored i j → (j < a_m A)%nat.
Proof. clear Ht.
  intros Hw Hs. pose proof (stored_lt _ _ Hs) as Hi. apply stored_iff in Hs; [|done].
  rewrite (pt_m _ _ _ _ _ Hp) in *. destruct Hs as [[-> H]|[H|[H|(w & r & Hr & [[H1 ->]|[-> H1]])]]].
  - done.
  - unfold face_pairs in H. apply elem_of_list_fmap in H as (f & E2 & Hf). apply (f_equal snd) in E2. cbn [snd] in E2.
    apply elem_of_seq in Hf. destruct (face_data g cf Hg f ltac:(lia)) as (a & b & H). pose proof (ok_range _ _ Hg _ _ _ H) as R.
    destruct H as [Ea Eb]. rewrite Eb in E2. cbn [default from_option] in E2. unfold opt_cell, Datatypes.id in E2. case_decide; [|done]. injection E2 as ->. lia.
  - unfold face_pairs in H. apply elem_of_list_fmap in H as (f & E1 & Hf). apply (f_equal fst) in E1. cbn [fst] in E1.
    apply elem_of_seq in Hf. destruct (face_data g cf Hg f ltac:(lia)) as (a & b & H). pose proof (ok_range _ _ Hg _ _ _ H) as R.
    destruct H as [Ea Eb]. rewrite Ea in E1. cbn [default from_option] in E1. unfold opt_cell, Datatypes.id in E1. case_decide; [|done]. injection E1 as ->. lia.
  - apply lookup_lt_Some in Hr. lia.
  - pose proof (Hw _ _ _ Hr H1). lia.
Qed.

(** ** Faces *)
Notation face i := (default 0%nat (u_cellfaces g !! i)).
Notation fc1 f := (default (-1)%Z (u_facecells g !! (2 * f)%nat)).
Definition face_ops (G : list R) (ci : nat * nat) : list op :=
  let f := face ci.2 in
  let o := neighbour g ci.1 f in
  OB ci.1 (- (T f * (sgn (fc1 f) ci.1 * default 0 (G !! f)))) ::
  (if decide (0 <= o)%Z then [OA ci.1 ci.1 (T f); OA ci.1 (Z.to_nat o) (- T f)] else []).

Lemma half_neighbour c i : (c, i) ∈ halves 0 0 cf → ∃ f a b, u_cellfaces g !! i = Some f ∧ (f < u_nf g)%nat ∧ face_between g f a b ∧
  (c < nc)%nat ∧ ((a = Z.of_nat c ∧ neighbour g c f = b) ∨ (a ≠ Z.of_nat c ∧ b = Z.of_nat c ∧ neighbour g c f = a)).
Proof. clear Ht.
  intros Hi. destruct (half_lt g cf Hg c i Hi) as [Hc Hl]. destruct (lookup_lt_is_Some_2 (u_cellfaces g) i) as [f Hf]; [done|].
  assert (Hh : half g c f i) by (by apply (half_iff g cf Hg)).
  destruct (half_cells g cf Hg c f i Hh) as (a & b & Hab & Hc').
  exists f, a, b. split_and!; try done; [by eapply half_face_lt|].
  unfold neighbour. destruct Hab as [Ea Eb]. rewrite Ea, Eb. destruct (decide (a = Z.of_nat c)) as [E|E]; [by left|].
  right. split; [done|]. split; [|done]. naive_solver.
Qed.
Lemma face_ops_valid G ci : ci ∈ halves 0 0 cf → Forall valid (face_ops G ci).
Proof. clear Ht.
  destruct ci as [c i]. intros (f & a & b & Hf & Hlt & Hab & Hc & Hn)%half_neighbour.
  unfold face_ops. cbn [fst snd]. rewrite Hf. cbn [default from_option]. unfold Datatypes.id.
  pose proof (pt_m _ _ _ _ _ Hp). pose proof (pt_len _ _ _ _ _ Hp).
  apply Forall_cons. split; [cbn [IfsProof.valid]; lia|]. destruct (decide _) as [Ho|]; [|done].
  apply Forall_cons. split; [apply stored_diag; lia|]. apply Forall_cons. split; [|done]. cbn [IfsProof.valid].
  destruct Hn as [[-> Hn]|(_ & -> & Hn)]; rewrite Hn in *.
  - rewrite <- (Z2Nat.id b) in Hab by done. by destruct (stored_face _ _ _ Hab).
  - rewrite <- (Z2Nat.id a) in Hab by done. by destruct (stored_face _ _ _ Hab).
Qed.
Lemma face_body_ops G j1 c i s : length G = u_nf g → (c, i) ∈ halves 0 0 cf → idx c c = Some j1 →
  face_body bsearch g A trans G j1 c i s = run exec (face_ops G (c, i)) s.
Proof.
  intros HG Hi Hj1. pose proof (face_ops_valid G _ Hi) as Hv.
  apply half_neighbour in Hi as (f & a & b & Hf & Hlt & Hab & Hc & Hn).
  unfold face_body, face_ops in *. cbn [fst snd] in *. rewrite Hf in *. cbn [default from_option mbind option_bind] in *. unfold Datatypes.id in *.
  destruct Hab as [Ea Eb]. rewrite Ea, Eb in *. cbn [default from_option mbind option_bind] in *. unfold Datatypes.id in *.
  destruct (lookup_lt_is_Some_2 trans f) as [t Et]; [lia|]. destruct (lookup_lt_is_Some_2 G f) as [fg Eg]; [lia|].
  rewrite Et, Eg in *. cbn [default from_option mbind option_bind] in *. unfold Datatypes.id in *. unfold neighbour in *. rewrite Ea, Eb in *.
  set (o := if decide (a = Z.of_nat c) then b else a) in *. cbn [run].
  change (IfsProof.exec bsearch A (OB c (- (t * (sgn a c * fg)))) s) with (addb c (- (t * (sgn a c * fg))) s).
  destruct (addb c (- (t * (sgn a c * fg))) s) as [s1|]; [|done]. cbn [mbind option_bind].
  destruct (decide (0 <= o)%Z) as [Ho|]; [|done]. cbn [run].
  apply Forall_cons in Hv as [_ Hv]. apply Forall_cons in Hv as [_ Hv]. apply Forall_cons in Hv as [Hv _]. cbn [IfsProof.valid] in Hv.
  destruct (stored_idx _ _ Hv) as [j2 Ej2]. unfold IfsProof.exec. rewrite Ej2, Hj1. cbn [mbind option_bind].
  destruct (adda j1 t s1) as [s2|]; [|done]. cbn [mbind option_bind]. by destruct (adda j2 (- t) s2).
Qed.
Lemma assemble_faces_ops G s : length G = u_nf g →
  assemble_faces bsearch g A trans G s = run exec (concat (map (face_ops G) (halves 0 0 cf))) s.
Proof.
  intros HG. unfold assemble_faces. pose proof (pt_m _ _ _ _ _ Hp).
  rewrite run_concat.
  rewrite (for_loop_ext _ _ _ (csr_step (u_facepos g) (λ c i s, j1 ← idx c c; face_body bsearch g A trans G j1 c i s))).
  - change (csr_loop nc (u_facepos g) (λ c i s, j1 ← idx c c; face_body bsearch g A trans G j1 c i s) s = run (λ b, run exec (face_ops G b)) (halves 0 0 cf) s).
    rewrite <- (ok_cells _ _ Hg). rewrite (csr_loop_run _ cf _ _ _ (ok_rows _ _ Hg)).
    apply run_ext. intros [c i] s' Hi. cbn [fst snd].
    destruct (half_lt g cf Hg c i Hi) as [Hc _]. destruct (stored_idx c c) as [j1 Ej1]; [apply stored_diag; lia|].
    rewrite Ej1. cbn [mbind option_bind]. by apply face_body_ops.
  - intros c s' Hc. unfold face_step. destruct (stored_idx c c) as [j1 Ej1]; [apply stored_diag; lia|].
    rewrite Ej1. cbn [mbind option_bind]. unfold csr_step. destruct (u_facepos g !! S c); [|done]. cbn [mbind option_bind].
    f_equal. apply for_loop_ext. intros i s'' _. rewrite Ej1. done.
Qed.

(** ** Wells *)
Section wells.
Context (W : @wells R name_t) (ds : list demand) (Hw : wells_ok nc W wrows ds).
Context (mt wdp : list R) (Hmt : length mt = nc) (Hwdp : length wdp = length (concat wrows)).
Definition pc (i : nat) : nat := Z.to_nat (default 0%Z (w_cells W !! i)).
Definition PT (i : nat) : R := default 0 (mt !! pc i) * default 0 (w_WI W !! i).
Definition PD (i : nat) : R := default 0 (wdp !! i).

Lemma connpos_starts k : (k <= length wrows)%nat → w_connpos W !! k = starts 0 wrows !! k.
Proof. clear Ht Hp.
  induction k as [|k IH]; intros Hk.
  - rewrite (wk_pos0 _ _ _ _ Hw). by destruct wrows.
  - destruct (lookup_lt_is_Some_2 wrows k) as [r Hr]; [lia|].
    destruct (starts_rows 0 [] wrows k r eq_refl Hr) as (b & Hb & He & _).
    rewrite He. apply (wk_pos _ _ _ _ Hw k r b Hr). rewrite IH by lia. done.
Qed.
Lemma perf_data w i : (w, i) ∈ halves 0 0 wrows → ∃ r c wi, wrows !! w = Some r ∧ c ∈ r ∧ (c < nc)%nat ∧
  w_cells W !! i = Some (Z.of_nat c) ∧ pc i = c ∧ w_WI W !! i = Some wi ∧ mt !! c = Some (default 0 (mt !! c)) ∧ PT i = default 0 (mt !! c) * wi ∧ wdp !! i = Some (PD i).
Proof. clear Ht Hp.
  intros H. assert (Hi : (i < length (concat wrows))%nat).
  { assert (i ∈ (halves 0 0 wrows).*2) as Hi by (apply elem_of_list_fmap; by exists (w, i)).
    rewrite halves_snd in Hi. apply elem_of_seq in Hi. lia. }
  apply halves_elem in H as (k & r & b & -> & Hr & Hb & Hlt). cbn [Nat.add].
  rewrite <- connpos_starts in Hb by (apply lookup_lt_Some in Hr; lia).
  destruct (lookup_lt_is_Some_2 r (i - b)) as [c Hc]; [lia|].
  destruct (wk_cells _ _ _ _ Hw k r b (i - b) c Hr Hb Hc) as (Hcell & Hlc & wi & Hwi).
  replace (b + (i - b))%nat with i in * by lia.
  assert (pc i = c) as Epc by (unfold pc; rewrite Hcell; cbn; unfold Datatypes.id; lia).
  destruct (lookup_lt_is_Some_2 mt c) as [m Em]; [lia|]. destruct (lookup_lt_is_Some_2 wdp i) as [d Ed]; [lia|].
  exists r, c, wi. split_and!; try done.
  - by eapply elem_of_list_lookup_2.
  - by rewrite Em.
  - unfold PT. by rewrite Epc, Hwi.
  - unfold PD. by rewrite Ed.
Qed.

Definition perf_ops (d : demand) (w i : nat) : list op :=
  let wd := (nc + w)%nat in let c := pc i in let t := PT i in
  match d with
  | Shut => [OA wd wd t]
  | Pressure bhp => [OA c c t; OB c (t * (bhp + PD i)); OA wd wd t; OB wd (t * bhp)]
  | Rate _ => [OA c c t; OA c wd (- t); OB c (t * PD i); OA wd c (- t); OA wd wd t; OB wd (- (t * PD i))]
  | Unsupported => []
  end.
Definition well_row (w : nat) : list nat :=
  match wrows !! w, starts 0 wrows !! w with Some r, Some b => seq b (length r) | _, _ => [] end.
Definition well_ops (w : nat) (d : demand) : list op :=
  concat (map (perf_ops d w) (well_row w)) ++ match d with Rate q => [OB (nc + w) q] | _ => [] end.

Lemma well_row_in w i : i ∈ well_row w ↔ (w, i) ∈ halves 0 0 wrows.
Proof.
  clear Ht Hmt Hwdp. unfold well_row. rewrite halves_elem. split.
  - destruct (wrows !! w) as [r|] eqn:Er; [|by intros ?%elem_of_nil]. destruct (starts 0 wrows !! w) as [b|] eqn:Eb; [|by intros ?%elem_of_nil].
    intros H%elem_of_seq. exists w, r, b. done.
  - intros (k & r & b & -> & Hr & Hb & Hi). cbn [Nat.add]. rewrite Hr, Hb. apply elem_of_seq. lia.
Qed.
Lemma perf_ops_valid d w i : (w, i) ∈ halves 0 0 wrows → Forall valid (perf_ops d w i).
Proof. clear Ht.
  intros (r & c & wi & Hr & Hc & Hlt & _ & Epc & _)%perf_data. pose proof (lookup_lt_Some _ _ _ Hr).
  pose proof (pt_m _ _ _ _ _ Hp). pose proof (pt_len _ _ _ _ _ Hp).
  destruct (stored_well w r c Hr Hc Hlt) as [S1 S2].
  pose proof (stored_diag c ltac:(lia)). pose proof (stored_diag (nc + w) ltac:(lia)).
  unfold perf_ops. rewrite Epc. destruct d; repeat (apply Forall_cons; split; [cbn [IfsProof.valid]; (done || lia)|]); done.
Qed.
Lemma well_ops_valid w d : (w < length wrows)%nat → Forall valid (well_ops w d).
Proof. clear Ht.
  intros Hlt. unfold well_ops. apply Forall_app. split.
  - apply Forall_concat, Forall_map, Forall_forall. intros i Hi. apply perf_ops_valid, well_row_in, Hi.
  - pose proof (pt_m _ _ _ _ _ Hp). pose proof (pt_len _ _ _ _ _ Hp). destruct d; try done.
    apply Forall_cons. split; [cbn [IfsProof.valid]; lia|done].
Qed.
Lemma perf_loop_run w (body : nat → nat → R → sys → option sys) s : (w < length wrows)%nat →
  perf_loop W mt w body s = run (λ i, body i (pc i) (PT i)) (well_row w) s.
Proof.
  intros Hlt. unfold perf_loop. destruct (lookup_lt_is_Some_2 wrows w) as [r Hr]; [done|].
  rewrite (connpos_starts w), (connpos_starts (S w)) by lia.
  destruct (starts_rows 0 [] wrows w r eq_refl Hr) as (b & Hb & He & _).
  assert (well_row w = seq b (length r)) as E by (unfold well_row; by rewrite Hr, Hb).
  rewrite Hb, He. cbn [mbind option_bind]. rewrite for_loop_run. rewrite E. replace (b + length r - b)%nat with (length r) by lia.
  apply run_ext. intros i s' Hi. rewrite <- E in Hi. apply well_row_in, perf_data in Hi as (r' & c & wi & _ & _ & Hlc & Hcell & Epc & Hwi & Hm & EPT & _).
  unfold perf_body. rewrite Hcell, Hwi. cbn [mbind option_bind]. rewrite decide_True by lia. rewrite Nat2Z.id, Hm. cbn [mbind option_bind].
  rewrite Epc, EPT. done.
Qed.

Ltac step s := destruct s as [?|]; [|done]; cbn [mbind option_bind].
Lemma bhp_ops w bhp s : (w < length wrows)%nat →
  assemble_bhp_well bsearch g A W mt wdp w bhp s = run exec (well_ops w (Pressure bhp)) s.
Proof.
  intros Hlt. pose proof (pt_m _ _ _ _ _ Hp). unfold assemble_bhp_well, well_ops. rewrite app_nil_r, run_concat.
  destruct (stored_idx (nc + w) (nc + w)) as [jw Ejw]; [apply stored_diag; lia|].
  rewrite Ejw. cbn [mbind option_bind]. rewrite perf_loop_run by done. apply run_ext. intros i s' Hi%well_row_in.
  apply perf_data in Hi as (r & c & wi & Hr & Hc & Hlc & _ & Epc & _ & _ & _ & Ed).
  destruct (stored_idx c c) as [jc Ejc]; [apply stored_diag; lia|].
  unfold perf_ops. rewrite Epc. cbn [run]. unfold IfsProof.exec. rewrite Ejc, Ejw, Ed. cbn [mbind option_bind].
  destruct (adda jc (PT i) s') as [s1|]; [|done]. cbn [mbind option_bind]. step (addb c (PT i * (bhp + PD i)) s1). step (adda jw (PT i) s0). by destruct (addb _ _ s2).
Qed.
Lemma rate_ops w q s : (w < length wrows)%nat →
  assemble_rate_well bsearch g A W mt wdp w q s = run exec (well_ops w (Rate q)) s.
Proof.
  intros Hlt. pose proof (pt_m _ _ _ _ _ Hp). unfold assemble_rate_well, well_ops. rewrite run_app, run_concat.
  destruct (stored_idx (nc + w) (nc + w)) as [jw Ejw]; [apply stored_diag; lia|].
  rewrite Ejw. cbn [mbind option_bind]. rewrite perf_loop_run by done.
  rewrite (run_ext _ (λ b, run exec (perf_ops (Rate q) w b))).
  - destruct (run (λ b, run exec (perf_ops (Rate q) w b)) (well_row w) s) as [s1|]; [|done]. cbn [mbind option_bind run].
    unfold IfsProof.exec. by destruct (addb (nc + w) q s1).
  - intros i s' Hi%well_row_in.
    apply perf_data in Hi as (r & c & wi & Hr & Hc & Hlc & _ & Epc & _ & _ & _ & Ed).
    destruct (stored_idx c c) as [jc Ejc]; [apply stored_diag; lia|].
    destruct (stored_well w r c Hr Hc Hlc) as [S1 S2].
    destruct (stored_idx _ _ S1) as [jcw Ejcw]. destruct (stored_idx _ _ S2) as [jwc Ejwc].
    unfold perf_ops. rewrite Epc. cbn [run]. unfold IfsProof.exec. rewrite Ejc, Ejw, Ejcw, Ejwc, Ed. cbn [mbind option_bind].
    step (adda jc (PT i) s'). step (adda jcw (- PT i) s0). step (addb c (PT i * PD i) s1). step (adda jwc (- PT i) s2).
    step (adda jw (PT i) s3). by destruct (addb _ _ s4).
Qed.
Lemma shut_ops w s : (w < length wrows)%nat →
  assemble_shut_well bsearch g A W mt w s = (s ← run exec (well_ops w Shut) s; b ← upd (s_b s) (nc + w) 0; Some (Sys (s_sa s) b)).
Proof.
  intros Hlt. pose proof (pt_m _ _ _ _ _ Hp). unfold assemble_shut_well, well_ops. rewrite app_nil_r, run_concat.
  destruct (stored_idx (nc + w) (nc + w)) as [jw Ejw]; [apply stored_diag; lia|].
  rewrite Ejw. cbn [mbind option_bind]. rewrite perf_loop_run by done.
  rewrite (run_ext _ (λ b, run exec (perf_ops Shut w b))); [done|].
  intros i s' Hi%well_row_in. unfold perf_ops. cbn [run]. unfold IfsProof.exec. rewrite Ejw. cbn [mbind option_bind]. by destruct (adda _ _ s').
Qed.
Lemma well_ops_b w d k : (w < length wrows)%nat → (nc <= k)%nat → k ≠ (nc + w)%nat → ob (well_ops w d) k = 0.
Proof. clear Ht Hp.
  intros Hlt Hk Hn. unfold ob, well_ops. rewrite rsum_app.
  assert (rsum (ob1 k) match d with Rate q => [OB (nc + w) q] | _ => [] end = 0) as ->.
  { destruct d; try done. cbn [rsum ob1]. rewrite decide_False by lia. lra. }
  rewrite rsum_concat, rsum_map. rewrite rsum_zero; [lra|]. intros i Hi%well_row_in.
  apply perf_data in Hi as (r & c & wi & Hr & Hc & Hlc & _ & Epc & _).
  unfold perf_ops. rewrite Epc. destruct d; cbn [rsum ob1]; rewrite ?(decide_False (P := c = k)), ?(decide_False (P := (nc + w)%nat = k)) by lia; lra.
Qed.

Definition supported (d : demand) : bool := match d with Unsupported => false | _ => true end.
Definition is_press (d : demand) : bool := match d with Pressure _ => true | _ => false end.

Lemma distr_one_spec distr k n : (∀ t, (t < n)%nat → is_Some (distr !! (k + t)%nat)) →
  ∃ b, distr_one distr k n = Some b ∧ (b = true ↔ ∀ t, (t < n)%nat → distr !! (k + t)%nat = Some 1).
Proof.
  revert k. induction n as [|n IH]; intros k H; cbn [distr_one].
  - exists true. split; [done|]. split; [|done]. intros _ t Ht'. lia.
  - destruct (H 0%nat ltac:(lia)) as [y Ey]. rewrite Nat.add_0_r in Ey. rewrite Ey. cbn [mbind option_bind].
    destruct (Req_EM_T y 1) as [->|Hy].
    + destruct (IH (S k)) as (b & Eb & Hb); [intros t Ht'; rewrite Nat.add_succ_comm; apply H; lia|].
      exists b. split; [done|]. rewrite Hb. split.
      * intros Hall [|t] Ht'; [by rewrite Nat.add_0_r|]. rewrite <- Nat.add_succ_comm. apply Hall. lia.
      * intros Hall t Ht'. rewrite Nat.add_succ_comm. apply Hall. lia.
    + exists false. split; [done|]. split; [done|]. intros Hall. specialize (Hall 0%nat ltac:(lia)). rewrite Nat.add_0_r, Ey in Hall. congruence.
Qed.

(** The loop over the wells. *)
Definition all_ops (k : nat) : list op := concat (imap (λ w d, well_ops w d) (take k ds)).
Lemma all_ops_S k d : ds !! k = Some d → all_ops (S k) = all_ops k ++ well_ops k d.
Proof.
  intros Hd. unfold all_ops. rewrite (take_S_r _ _ _ Hd). rewrite imap_app, concat_app. f_equal. cbn.
  rewrite take_length_le by (apply lookup_lt_Some in Hd; lia). rewrite Nat.add_0_r. apply app_nil_r.
Qed.
Lemma assemble_wells_ops s : sized ja rows s → (∀ w, (w < length wrows)%nat → s_b s !! (nc + w)%nat = Some 0) →
  ∃ ok s' ops, assemble_wells bsearch g A W mt wdp s = Some (forallb (λ d, negb (is_press d)) ds, ok, s') ∧
    run exec ops s = Some s' ∧ Forall valid ops ∧
    ok = forallb supported ds ∧ (ok = true → ops = all_ops (length ds)).
Proof.
  intros Hs Hz. unfold assemble_wells. pose proof (pt_m _ _ _ _ _ Hp) as Hm. pose proof (pt_len _ _ _ _ _ Hp) as Hlr.
  pose proof (wk_len _ _ _ _ Hw) as Hld.
  assert (Hex : ∀ ops s1, Forall valid ops → run exec ops s = Some s1 → sized ja rows s1 ∧ ∀ k, s_b s1 !! k = (λ x, x + ob ops k) <$> s_b s !! k).
  { intros ops s1 Hv E. destruct (execs_ok bsearch Hbs A ja rows (pt_ja _ _ _ _ _ Hp) (pt_rows _ _ _ _ _ Hp)
      (λ i r H, proj1 (pt_coup _ _ _ _ _ Hp i r H)) ops s Hv Hs) as (s2 & E2 & H1 & _ & H2).
    rewrite E in E2. injection E2 as <-. done. }
  set (P := λ (k : nat) (st : bool * bool * sys), ∃ ops, st.1.1 = forallb (λ d, negb (is_press d)) (take k ds) ∧ run exec ops s = Some st.2 ∧
     Forall valid ops ∧ (∀ w, (k <= w)%nat → (w < length wrows)%nat → ob ops (nc + w) = 0) ∧
     st.1.2 = forallb supported (take k ds) ∧ (st.1.2 = true → ops = all_ops k)).
  destruct (for_loop_inv P (w_nw W) 0 (well_body bsearch g A W mt wdp) (true, true, s)) as ([[rate ok] s'] & E & ops & H1 & H2 & H3 & H4 & H5 & H6).
  - exists []. split_and!; try done.
  - rewrite (wk_nw _ _ _ _ Hw). intros w [[rate ok] s1] Hlt (ops & H1 & H2 & H3 & H4 & H5 & H6). cbn [fst snd] in *.
    destruct (lookup_lt_is_Some_2 ds w) as [d Hd]; [lia|]. destruct (wk_ctrl _ _ _ _ Hw w d Hd) as (c & Hc & Hdem).
    rewrite Nat.add_1_r.
    assert (Hfin : ∀ ops' s2, run exec ops' s1 = Some s2 → Forall valid ops' → (∀ k, (nc <= k)%nat → k ≠ (nc + w)%nat → ob ops' k = 0) →
       (ok && supported d = true → ops' = well_ops w d) → P (S w) (rate && negb (is_press d), ok && supported d, s2)).
    { intros ops' s2 E' Hv Hb Hop. exists (ops ++ ops'). cbn [fst snd]. split_and!.
      - rewrite (take_S_r _ _ _ Hd), forallb_app. cbn [forallb]. rewrite andb_true_r. by rewrite H1.
      - rewrite run_app, H2. done.
      - apply Forall_app. done.
      - intros w' Hw' Hl'. rewrite ob_app. rewrite (H4 w') by lia. rewrite (Hb (nc + w')%nat) by lia. lra.
      - rewrite (take_S_r _ _ _ Hd), forallb_app. cbn [forallb]. rewrite andb_true_r. by rewrite H5.
      - intros Hk. rewrite (all_ops_S _ _ Hd). rewrite Hop by done. apply andb_true_iff in Hk as [Hk _]. by rewrite H6. }
    unfold well_body. rewrite Hc. cbn [mbind option_bind]. unfold demand_of in Hdem.
    destruct (decide (c_current c < 0)%Z) as [Hcur|Hcur].
    + subst d. rewrite shut_ops by lia. destruct (execs_ok bsearch Hbs A ja rows (pt_ja _ _ _ _ _ Hp) (pt_rows _ _ _ _ _ Hp)
        (λ i r H, proj1 (pt_coup _ _ _ _ _ Hp i r H)) (well_ops w Shut) s1) as (s2 & E2 & _ & _ & HB); [apply well_ops_valid; lia|by eapply Hex|].
      rewrite E2. cbn [mbind option_bind].
      assert (Hzero : s_b s2 !! (nc + w)%nat = Some 0).
      { rewrite HB. destruct (Hex _ _ H3 H2) as [_ ->]. rewrite Hz by lia. cbn. f_equal. rewrite H4 by lia.
        unfold ob, well_ops. rewrite app_nil_r, rsum_concat, rsum_map, rsum_zero; [lra|]. intros i _. cbn. lra. }
      assert (upd (s_b s2) (nc + w) 0 = Some (s_b s2)) as ->.
      { rewrite upd_Some by (by eapply lookup_lt_Some). by rewrite list_insert_id. }
      cbn [mbind option_bind]. exists (rate, ok, s2). split; [by destruct s2|].
      replace (rate, ok, s2) with (rate && negb (is_press Shut), ok && supported Shut, s2) by (by rewrite !andb_true_r).
      apply (Hfin (well_ops w Shut)); try done; [apply well_ops_valid; lia|intros k ? ?; apply well_ops_b; lia].
    + destruct Hdem as (ty & v & Hk & Hty & Hv & Hdi & Hd'). cbn zeta in *. rewrite decide_True by done. rewrite Hty. cbn [mbind option_bind].
      assert (Hgood : ∀ (d' : demand), (w < length wrows)%nat → sized ja rows s1 → ∃ s2, run exec (well_ops w d') s1 = Some s2).
      { intros d' Hl Hsz. destruct (execs_ok bsearch Hbs A ja rows (pt_ja _ _ _ _ _ Hp) (pt_rows _ _ _ _ _ Hp)
          (λ i r H, proj1 (pt_coup _ _ _ _ _ Hp i r H)) (well_ops w d') s1) as (s2 & E2 & _); [apply well_ops_valid; lia|done|eauto]. }
      destruct (Hex _ _ H3 H2) as [Hsz _]. destruct ty.
      * subst d. rewrite Hv. cbn [mbind option_bind]. rewrite bhp_ops by lia. destruct (Hgood (Pressure v)) as [s2 E2]; [lia|done|].
        rewrite E2. cbn [mbind option_bind]. exists (false, ok, s2). split; [done|].
        replace (false, ok, s2) with (rate && negb (is_press (Pressure v)), ok && supported (Pressure v), s2) by (cbn; by rewrite andb_false_r, andb_true_r).
        apply (Hfin (well_ops w (Pressure v))); try done; [apply well_ops_valid; lia|intros k ? ?; apply well_ops_b; lia].
      * destruct (distr_one_spec (c_distr c) (w_np W * Z.to_nat (c_current c)) (w_np W) Hdi) as (one & -> & Hone). cbn [mbind option_bind].
        destruct Hd' as [[-> Hall]|(-> & t & y & Hty' & Ey & Hy)].
        -- assert (one = true) as -> by (by apply Hone). destruct ok.
           ++ rewrite Hv. cbn [mbind option_bind]. rewrite rate_ops by lia. destruct (Hgood (Rate v)) as [s2 E2]; [lia|done|]. rewrite E2.
              cbn [mbind option_bind]. exists (rate, true, s2). split; [done|].
              replace (rate, true, s2) with (rate && negb (is_press (Rate v)), true && supported (Rate v), s2) by (cbn; by rewrite andb_true_r).
              apply (Hfin (well_ops w (Rate v))); try done; [apply well_ops_valid; lia|intros k ? ?; apply well_ops_b; lia].
           ++ exists (rate, false, s1). split; [done|].
              replace (rate, false, s1) with (rate && negb (is_press (Rate v)), false && supported (Rate v), s1) by (cbn; by rewrite andb_true_r).
              apply (Hfin []); try done.
        -- assert (one = false) as ->.
           { destruct one; [|done]. destruct Hone as [Hone _]. rewrite (Hone eq_refl t Hty') in Ey. congruence. }
           exists (rate, false, s1). split; [done|].
           replace (rate, false, s1) with (rate && negb (is_press Unsupported), ok && supported Unsupported, s1) by (cbn; by rewrite andb_true_r, andb_false_r).
           apply (Hfin []); try done. by rewrite andb_false_r.
      * subst d. exists (rate, false, s1). split; [done|].
        replace (rate, false, s1) with (rate && negb (is_press Unsupported), ok && supported Unsupported, s1) by (cbn; by rewrite andb_true_r, andb_false_r).
        apply (Hfin []); try done. by rewrite andb_false_r.
  - rewrite Nat.add_0_l, (wk_nw _ _ _ _ Hw), <- Hld in H1, H4, H5, H6. rewrite take_ge in H1, H5 by lia. cbn [fst snd] in *. subst rate.
    exists ok, s', ops. done.
Qed.
End wells.

(** ** Boundary conditions *)
Notation fc2 f := (default (-1)%Z (u_facecells g !! (2 * f + 1)%nat)).
Definition bcell (f : nat) : nat := Z.to_nat (if decide (0 <= fc1 f)%Z then fc1 f else fc2 f).
Definition bsign (f : nat) : R := if decide (0 <= fc1 f)%Z then 1 else -1.
Definition bc_ops (G : list R) (e : bctype * R * nat) : list op :=
  let f := e.2 in
  match e.1.1 with
  | BC_NOFLOW => []
  | BC_PRESSURE => [OA (bcell f) (bcell f) (T f); OB (bcell f) (T f * e.1.2); OB (bcell f) (- (bsign f * T f * default 0 (G !! f)))]
  | BC_FLUX_TOTVOL => [OB (bcell f) e.1.2]
  end.
Definition not_press (ty : bctype) : bool := match ty with BC_PRESSURE => false | _ => true end.

Lemma run_seq_list {B S} (f : nat → S → option S) (h : B → S → option S) b l s :
  (∀ t x s, l !! t = Some x → f (b + t)%nat s = h x s) → run f (seq b (length l)) s = run h l s.
Proof.
  revert b s. induction l as [|x l IH]; intros b s H; [done|]. cbn [length seq run].
  rewrite <- (H 0%nat x s eq_refl). rewrite Nat.add_0_r. destruct (f b s) as [s1|]; [|done]. cbn [mbind option_bind].
  apply IH. intros t y s' Hy. rewrite Nat.add_succ_comm. by apply (H (Datatypes.S t)).
Qed.

Section bcs.
Context (bc : flowbc) (l : list bcitem) (Hb : bc_ok g bc l).
Context (G : list R) (HG : length G = u_nf g).
Definition bcs : list (bctype * R * nat) := concat (active <$> l).

Lemma bc_ext ty v f : (ty, v, f) ∈ bcs → ∃ c1 c2, face_between g f c1 c2 ∧ (f < u_nf g)%nat ∧ (bcell f < nc)%nat ∧
  ((c1 = Z.of_nat (bcell f) ∧ c2 = -1 ∧ bsign f = 1%R) ∨ (c1 = -1 ∧ c2 = Z.of_nat (bcell f) ∧ bsign f = (-1)%R))%Z.
Proof. clear Ht Hp HG.
  intros (c & Hc & Hf)%(bk_ext _ _ _ Hb).
  assert (Hlt : (f < u_nf g)%nat).
  { destruct Hf as [[H _]|[H _]]; apply lookup_lt_Some in H; rewrite (ok_faces _ _ Hg) in H; lia. }
  destruct Hf as [[E1 E2]|[E1 E2]]; unfold bcell, bsign.
  - exists (Z.of_nat c), (-1)%Z. rewrite E1, E2. cbn [default from_option]. unfold Datatypes.id. rewrite !decide_True by lia. rewrite Nat2Z.id.
    split_and!; try done. left. done.
  - exists (-1)%Z, (Z.of_nat c). rewrite E1, E2. cbn [default from_option]. unfold Datatypes.id. rewrite !decide_False by lia. rewrite Nat2Z.id.
    split_and!; try done. right. done.
Qed.
Lemma bc_ops_valid e : e ∈ bcs → Forall valid (bc_ops G e).
Proof. clear Ht HG.
  destruct e as [[ty v] f]. intros (c1 & c2 & _ & _ & Hc & _)%bc_ext. pose proof (pt_m _ _ _ _ _ Hp). pose proof (pt_len _ _ _ _ _ Hp).
  pose proof (stored_diag (bcell f) ltac:(lia)).
  unfold bc_ops. cbn [fst snd]. destruct ty; repeat (apply Forall_cons; split; [cbn [IfsProof.valid]; (done || lia)|]); done.
Qed.
Lemma bc_face_ok ty v f j : (ty, v, f) ∈ bcs → fb_face bc !! j = Some (Z.of_nat f) →
  ∃ c1 c2, bc_face g bc j = Some (f, c1, c2) ∧ (f < u_nf g)%nat ∧ (bcell f < nc)%nat ∧
    ((c1 = Z.of_nat (bcell f) ∧ c2 = -1 ∧ bsign f = 1%R) ∨ (c1 = -1 ∧ c2 = Z.of_nat (bcell f) ∧ bsign f = (-1)%R))%Z.
Proof. clear Ht Hp HG.
  intros (c1 & c2 & [E1 E2] & Hlt & Hc & Hs)%bc_ext Hj. exists c1, c2. split_and!; try done.
  unfold bc_face. rewrite Hj. cbn [mbind option_bind]. rewrite decide_True by lia. rewrite Nat2Z.id, E1, E2. cbn [mbind option_bind].
  destruct Hs as [(-> & -> & _)|(-> & -> & _)].
  - rewrite (bool_decide_eq_false_2 (Z.of_nat (bcell f) < 0)%Z) by lia. done.
  - rewrite (bool_decide_eq_false_2 (Z.of_nat (bcell f) < 0)%Z) by lia. done.
Qed.
Lemma item_in it f : it ∈ l → it.1.1 ≠ BC_NOFLOW → f ∈ it.2 → (it.1.1, it.1.2, f) ∈ bcs.
Proof. clear Ht Hp.
  intros Hit Hty Hf. unfold bcs. apply elem_of_list_In, in_concat. exists (active it). rewrite <- !elem_of_list_In. split; [by apply elem_of_list_fmap_1|].
  unfold active. destruct it.1.1 eqn:E; [done|..]; apply elem_of_list_fmap_1_alt with f; done.
Qed.
Lemma assemble_bc_ops s : sized ja rows s → ∃ s', assemble_bc bsearch g A trans G bc s = Some (forallb (λ it, not_press it.1.1) l, s') ∧
  run exec (concat (map (bc_ops G) bcs)) s = Some s'.
Proof.
  intros Hs. unfold assemble_bc. rewrite (bk_n _ _ _ Hb). pose proof (pt_m _ _ _ _ _ Hp).
  assert (Hval : ∀ k, Forall valid (concat (map (bc_ops G) (concat (active <$> take k l))))).
  { intros k. apply Forall_concat, Forall_map, Forall_forall. intros e He. apply bc_ops_valid.
    unfold bcs. rewrite <- (take_drop k l). rewrite fmap_app, concat_app. apply elem_of_app. by left. }
  set (P := λ (k : nat) (st : bool * sys), st.1 = forallb (λ it, not_press it.1.1) (take k l) ∧
     run exec (concat (map (bc_ops G) (concat (active <$> take k l)))) s = Some st.2).
  destruct (for_loop_inv P (length l) 0 (bc_body bsearch g A trans G bc) (true, s)) as ([n s'] & E & H1 & H2).
  - split; done.
  - intros i [n s1] Hi [H1 H2]. cbn [fst snd] in *. destruct (lookup_lt_is_Some_2 l i) as [it Hit]; [lia|].
    destruct (bk_item _ _ _ Hb i it Hit) as (Ety & Ev & b & Eb & Ee & Hfs). rewrite Nat.add_1_r.
    assert (Hex : ∃ s2, run exec (concat (map (bc_ops G) (active it))) s1 = Some s2).
    { destruct (execs_ok bsearch Hbs A ja rows (pt_ja _ _ _ _ _ Hp) (pt_rows _ _ _ _ _ Hp)
        (λ i r H, proj1 (pt_coup _ _ _ _ _ Hp i r H)) _ s (Hval (S i)) Hs) as (s2 & E2 & _).
      rewrite (take_S_r _ _ _ Hit), fmap_app, concat_app, map_app, concat_app, run_app, H2 in E2. cbn in E2. rewrite app_nil_r in E2. eauto. }
    destruct Hex as [s2 E2].
    assert (HP : P (S i) (n && not_press it.1.1, s2)).
    { split; cbn [fst snd].
      - rewrite (take_S_r _ _ _ Hit), forallb_app. cbn [forallb]. by rewrite andb_true_r, <- H1.
      - rewrite (take_S_r _ _ _ Hit), fmap_app, concat_app, map_app, concat_app, run_app, H2. cbn. by rewrite app_nil_r. }
    unfold bc_body. rewrite Ety. cbn [mbind option_bind]. cbn [fst snd] in *.
    assert (Hin : it ∈ l) by (by eapply elem_of_list_lookup_2).
    destruct it as [[ty v] fs]. cbn [fst snd] in *. destruct ty.
    + cbn in E2. injection E2 as <-. exists (n, s1). split; [done|]. by rewrite andb_true_r in HP.
    + rewrite Eb, Ee, Ev. cbn [mbind option_bind]. exists (false, s2). rewrite andb_false_r in HP. split; [|done].
      replace (b + length fs - b)%nat with (length fs) by lia. rewrite for_loop_run.
      rewrite (run_seq_list _ (λ f, run exec (bc_ops G (BC_PRESSURE, v, f)))).
      * unfold active in E2. cbn [fst snd] in E2. rewrite run_concat in E2.
        change ((λ f, (BC_PRESSURE, v, f)) <$> fs) with (map (λ f, (BC_PRESSURE, v, f)) fs) in E2. rewrite run_map in E2. rewrite E2. done.
      * intros t f s3 Ef. assert (Hbin : (BC_PRESSURE, v, f) ∈ bcs) by (apply (item_in (BC_PRESSURE, v, fs)); [done..|]; by eapply elem_of_list_lookup_2).
        destruct (bc_face_ok _ _ _ (b + t) Hbin (Hfs t f Ef)) as (c1 & c2 & Ebf & Hlt & Hbc & Hsg).
        unfold bc_press_body. rewrite Ebf. cbn [mbind option_bind]. destruct (lookup_lt_is_Some_2 trans f) as [tf Etf]; [lia|].
        destruct (lookup_lt_is_Some_2 G f) as [gf Egf]; [lia|]. unfold bc_ops. cbn [fst snd]. rewrite Etf, Egf. cbn [mbind option_bind default from_option]. unfold Datatypes.id.
        destruct (stored_idx (bcell f) (bcell f)) as [p Ep]; [apply stored_diag; lia|]. cbn [run]. unfold IfsProof.exec. rewrite Ep.
        assert (Z.to_nat (if decide (0 <= c1)%Z then c1 else c2) = bcell f ∧ (if decide (0 <= c1)%Z then 1 else -1) = bsign f) as [-> ->].
        { destruct Hsg as [(-> & -> & ->)|(-> & -> & ->)]; [rewrite !decide_True by lia|rewrite !decide_False by lia]; by rewrite Nat2Z.id. }
        rewrite Ep. cbn [mbind option_bind]. destruct (adda p tf s3) as [s4|]; [|done]. cbn [mbind option_bind].
        destruct (addb (bcell f) (tf * v) s4) as [s5|]; [|done]. cbn [mbind option_bind]. by destruct (addb _ _ s5).
    + rewrite Eb, Ee, Ev. cbn [mbind option_bind]. exists (n, s2). rewrite andb_true_r in HP. split; [|done].
      rewrite (bk_flux _ _ _ Hb _ _ Hin). rewrite decide_True by done. replace (b + 1 - b)%nat with 1%nat by lia.
      pose proof (bk_flux _ _ _ Hb _ _ Hin) as Hl1. destruct fs as [|f [|??]]; [done| |done].
      cbn [for_loop]. pose proof (Hfs 0%nat f eq_refl) as Hf0. rewrite Nat.add_0_r in Hf0.
      assert (Hbin : (BC_FLUX_TOTVOL, v, f) ∈ bcs) by (apply (item_in (BC_FLUX_TOTVOL, v, [f])); [done..|]; by left).
      destruct (bc_face_ok _ _ _ b Hbin Hf0) as (c1 & c2 & Ebf & Hlt & Hbc & Hsg).
      unfold bc_flux_body. rewrite Ebf. cbn [mbind option_bind]. cbn in E2.
      assert (Z.to_nat (if decide (0 <= c1)%Z then c1 else c2) = bcell f) as ->.
      { destruct Hsg as [(-> & -> & _)|(-> & -> & _)]; [rewrite !decide_True by lia|rewrite !decide_False by lia]; by rewrite Nat2Z.id. }
      destruct (addb (bcell f) v s1) as [s3|]; [|done]. cbn [mbind option_bind] in *. congruence.
  - rewrite Nat.add_0_l, take_ge in H1, H2 by lia. cbn [fst snd] in *. subst n. exists s'. done.
Qed.
End bcs.

(** ** Sources *)
Definition src_ops (src : list R) : list op := map (λ c, OB c (default 0 (src !! c))) (seq 0 nc).
Lemma src_ops_valid src : Forall valid (src_ops src).
Proof. clear Ht.
  apply Forall_map, Forall_forall. intros c Hc%elem_of_seq. pose proof (pt_m _ _ _ _ _ Hp). pose proof (pt_len _ _ _ _ _ Hp).
  cbn [IfsProof.valid]. lia.
Qed.
Lemma assemble_src_ops src s : length src = nc → for_loop nc 0 (src_body src) s = run exec (src_ops src) s.
Proof.
  intros Hl. rewrite for_loop_run. unfold src_ops. rewrite run_map. apply run_ext. intros c s' Hc%elem_of_seq.
  unfold src_body. destruct (lookup_lt_is_Some_2 src c) as [q ->]; [lia|]. done.
Qed.
End ops.
