(** Pressures and fluxes on sides (C69), with examples. *)
From Coq Require Import Reals Lra Psatz.
From Verif Require Import Base LoopModel LoopProof TableModel UTableProof TofSpec TofProof MiscSpec AppendModel AppendSpec AppendProof SideModel SideSpec SideProps.
Local Open Scope R_scope.
Unset Default Proof Using.

Section conditions.
Context (jt : bctype) (jv : R) (jn : nat) (jz : Z).
Context (g : tgrid) (tag : list Z) (co : nat → list nat) (side : nat).
Hypothesis Hco : coordinates g co.
Hypothesis Hsz : sized g tag.
Hypothesis Hside : (side < 2 * tg_dim g)%nat.
Hypothesis Hb : ∀ hf f, side_half g tag co side hf f → boundary g f.
Hypothesis Hu : ∀ hf hf' f, tg_faces g !! hf = Some f → tg_faces g !! hf' = Some f → boundary g f → hf = hf'.

(** A side with faces gets one condition for all of them; conditions present stay,
    also when memory runs out. *)
Theorem C69_pressure (p : R) (s : fbc R bctype) (o : list bool) (bcs : list (bc R bctype)) : (∃ hf f, side_half g tag co side hf f) →
  fbc_inv s → holds_bcs s bcs →
  ∃ ok s' o' faces, pressure_side jt jv jn jz g side p s o = Some (ok, s', o') ∧ fbc_inv s' ∧ NoDup faces ∧
    (∀ f, f ∈ faces ↔ ∃ hf, side_half g tag co side hf f) ∧
    holds_bcs s' (if ok : bool then bcs ++ [Bc BC_PRESSURE p (map Z.of_nat faces)] else bcs).
Proof using Hco Hsz Hside Hb Hu.
  intros (hf & f & Hh) HI HH. destruct (C69_faces g tag co side Hco Hsz Hside Hb) as (hs & faces & E & _ & _ & _ & Hf & Hn).
  unfold pressure_side. rewrite E. cbn [mbind option_bind]. assert (f ∈ faces) as Hin by (apply Hf; by exists hf).
  destruct faces as [|f0 faces]; [by apply elem_of_nil in Hin|].
  destruct (append_ok jt jv jn jz BC_PRESSURE (map Z.of_nat (f0 :: faces)) p s o bcs HI HH) as (ok & s' & o' & E2 & HI' & HH').
  exists ok, s', o', (f0 :: faces). split; [done|]. split; [done|]. split; [by apply Hn|]. done.
Qed.

Lemma fluxes_ok flux tot faces s o bcs : tot ≠ 0 → (∀ f, f ∈ faces → (f < length (tg_area g))%nat) → fbc_inv s → holds_bcs s bcs →
  ∃ ok s' o' k, append_fluxes jt jv jn jz g flux tot faces s o = Some (ok, s', o') ∧ fbc_inv s' ∧ (k <= length faces)%nat ∧ (ok = true ↔ k = length faces) ∧
    holds_bcs s' (bcs ++ map (λ f, Bc BC_FLUX_TOTVOL (flux * area g f / tot) [Z.of_nat f]) (take k faces)).
Proof using Hside.
  intros Ht. revert s o bcs. induction faces as [|f faces IH]; intros s o bcs Ha HI HH; cbn [append_fluxes].
  - exists true, s, o, 0%nat. cbn. rewrite app_nil_r. done.
  - assert (f < length (tg_area g))%nat as Hf by (apply Ha; constructor). destruct (lookup_lt_is_Some_2 _ _ Hf) as [a Ea]. rewrite Ea. cbn [mbind option_bind].
    rewrite rdiv_Some by done. cbn [mbind option_bind].
    destruct (append_ok jt jv jn jz BC_FLUX_TOTVOL [Z.of_nat f] (flux * a / tot) s o bcs HI HH) as (ok & s1 & o1 & E & HI1 & HH1). rewrite E. cbn [mbind option_bind].
    assert (area g f = a) as Hav by (unfold area, val; by rewrite Ea). destruct ok.
    + destruct (IH s1 o1 _ ltac:(intros x Hx; apply Ha; by constructor) HI1 HH1) as (ok & s' & o' & k & E' & HI' & Hk & Hok & HH').
      exists ok, s', o', (S k). split; [done|]. split; [done|]. cbn [length take map]. split; [lia|]. split; [rewrite Hok; lia|]. rewrite Hav. by rewrite <- app_assoc in HH'.
    + exists false, s1, o1, 0%nat. split; [done|]. split; [done|]. cbn [length take map]. split; [lia|]. split; [split; [done|lia]|]. by rewrite app_nil_r.
Qed.

Lemma total_area faces : (∀ f, f ∈ faces → (f < length (tg_area g))%nat) →
  for_loop (length faces) 0 (λ i tot, f ← faces !! i; a ← tg_area g !! f; Some (tot + a)) 0 = Some (rsum (area g) faces).
Proof using Hside.
  intros Ha. assert (∀ k, (k <= length faces)%nat → ∀ t, for_loop k (length faces - k) (λ i tot, f ← faces !! i; a ← tg_area g !! f; Some (tot + a)) t = Some (t + rsum (area g) (drop (length faces - k) faces))) as H.
  { induction k as [|k IH]; intros Hk t; cbn [for_loop].
    - rewrite Nat.sub_0_r, drop_all. cbn. f_equal. lra.
    - destruct (lookup_lt_is_Some_2 faces (length faces - S k)) as [f Ef]; [lia|]. rewrite Ef. cbn [mbind option_bind].
      assert (f < length (tg_area g))%nat as Hf by (apply Ha; by eapply elem_of_list_lookup_2). destruct (lookup_lt_is_Some_2 _ _ Hf) as [a Ea]. rewrite Ea. cbn [mbind option_bind].
      replace (S (length faces - S k)) with (length faces - k)%nat by lia. rewrite IH by lia. rewrite (drop_S faces f (length faces - S k)) by done.
      replace (S (length faces - S k)) with (length faces - k)%nat by lia. cbn [rsum]. f_equal. unfold area at 2. unfold val. rewrite Ea. cbn. lra. }
  specialize (H (length faces) ltac:(lia) 0). rewrite Nat.sub_diag, drop_0 in H. rewrite H. f_equal. lra.
Qed.

(** Each face of the side gets a condition of its own, all with the same flux per
    area, which together are the given flux; when memory runs out, some of them. *)
Theorem C69_flux (flux : R) (s : fbc R bctype) (o : list bool) (bcs : list (bc R bctype)) : (∃ hf f, side_half g tag co side hf f) →
  Forall (Rlt 0) (tg_area g) → fbc_inv s → holds_bcs s bcs →
  ∃ ok s' o' faces vs k, flux_side jt jv jn jz g side flux s o = Some (ok, s', o') ∧ fbc_inv s' ∧ NoDup faces ∧
    (∀ f, f ∈ faces ↔ ∃ hf, side_half g tag co side hf f) ∧
    (∃ u, ∀ f, f ∈ faces → vs f = u * area g f) ∧ rsum vs faces = flux ∧
    (k <= length faces)%nat ∧ (ok = true ↔ k = length faces) ∧ holds_bcs s' (bcs ++ map (λ f, Bc BC_FLUX_TOTVOL (vs f) [Z.of_nat f]) (take k faces)).
Proof using Hco Hsz Hside Hb Hu.
  intros (hf & f & Hh) Hpos HI HH. destruct (C69_faces g tag co side Hco Hsz Hside Hb) as (hs & faces & E & _ & _ & _ & Hf & Hn).
  assert (∀ x, x ∈ faces → (x < length (tg_area g))%nat) as Ha.
  { intros x (h & c & _ & _ & _ & _ & Ex)%Hf. destruct Hsz as (_ & _ & _ & _ & Fc). by destruct (Fc h x Ex). }
  assert (∀ x, x ∈ faces → 0 < area g x) as Hap.
  { intros x Hx. specialize (Ha x Hx). destruct (lookup_lt_is_Some_2 _ _ Ha) as [a Ea]. unfold area, val. rewrite Ea. cbn. by apply (Forall_lookup_1 _ _ _ _ Hpos Ea). }
  assert (f ∈ faces) as Hin by (apply Hf; by exists hf).
  assert (0 < rsum (area g) faces) as Htot.
  { destruct faces as [|f0 faces]; [by apply elem_of_nil in Hin|]. cbn [rsum]. assert (0 < area g f0) by (apply Hap; constructor).
    assert (0 <= rsum (area g) faces) by (apply rsum_nonneg; intros x Hx; left; apply Hap; by constructor). lra. }
  unfold flux_side. rewrite E. cbn [mbind option_bind]. rewrite total_area by done. cbn [mbind option_bind].
  destruct (fluxes_ok flux (rsum (area g) faces) faces s o bcs ltac:(lra) Ha HI HH) as (ok & s' & o' & k & E' & HI' & Hk & Hok & HH').
  exists ok, s', o', faces, (λ f, flux * area g f / rsum (area g) faces), k. split; [done|]. split; [done|]. split; [by apply Hn|]. split; [done|]. split.
  { exists (flux / rsum (area g) faces). intros x _. field. lra. }
  split; [|done].
  rewrite (rsum_ext _ (λ f, flux / rsum (area g) faces * area g f + 0 * area g f)) by (intros; field; lra). rewrite rsum_lin. field. lra.
Qed.

(** Without faces a flux is accepted although nothing is recorded. *)
Theorem C69_no_faces (flux : R) (s : fbc R bctype) (o : list bool) : (¬ ∃ hf f, side_half g tag co side hf f) →
  flux_side jt jv jn jz g side flux s o = Some (true, s, o) ∧ ∀ p, pressure_side jt jv jn jz g side p s o = None.
Proof using Hco Hsz Hside Hb Hu.
  intros Hno. destruct (C69_faces g tag co side Hco Hsz Hside Hb) as (hs & faces & E & _ & _ & _ & Hf & _).
  assert (faces = []) as ->. { destruct faces as [|x faces]; [done|]. exfalso. apply Hno. destruct (proj1 (Hf x) ltac:(constructor)) as (hf & Hh). by exists hf, x. }
  unfold flux_side, pressure_side. rewrite E. done.
Qed.
End conditions.
Print Assumptions C69_pressure.
Print Assumptions C69_flux.
Print Assumptions C69_no_faces.

(** The invariant holds from the constructor on. *)
Theorem C69_start jt jv jn jz (o : list bool) : ∃ r o1, fbc_construct (V := R) (bctype := bctype) jt jv jn jz 0 o = Some (r, o1) ∧
  ∀ s, r = Some s → fbc_inv s ∧ holds_bcs s [] ∧ fbc_inv (fbc_clear s) ∧ fbc_destroy s = Some tt.
Proof.
  destruct (construct_ok jt jv jn jz 0 o) as (r & o1 & E & Hr). exists r, o1. split; [done|]. intros s ->. destruct Hr as (HI & HH & _).
  split; [done|]. split; [done|]. split; [by apply clear_ok|]. by apply inv_destroy.
Qed.
Print Assumptions C69_start.

(** Two cells in a row, of a box of three; faces 0, 1, 2 across and 3 to 6 along. *)
Definition ex_row : tgrid := TGrid 2 [3; 1]%nat (Some [1; 2]%nat) 2 [0; 4; 8]%nat [0; 1; 3; 4; 1; 2; 5; 6]%nat (Some [0; 1; 2; 3; 0; 1; 2; 3]%Z)
  [-1; 0; 0; 1; 1; -1; -1; 0; 0; -1; -1; 1; 1; -1]%Z [1; 1; 1; 2; 2; 6; 6].
Definition ex_co (c : nat) : list nat := [S c; 0%nat].
Example ex_row_ok : coordinates ex_row ex_co ∧ sized ex_row [0; 1; 2; 3; 0; 1; 2; 3]%Z ∧ Forall (Rlt 0) (tg_area ex_row) ∧
  (∀ hf hf' f, tg_faces ex_row !! hf = Some f → tg_faces ex_row !! hf' = Some f → boundary ex_row f → hf = hf').
Proof.
  split; [|split; [|split]].
  - split; [cbn; lia|]. split; [cbn; lia|]. split; [intros l [= <-]; cbn; lia|]. intros c Hc. cbn in Hc. destruct c as [|[|]]; [| |lia]; (split; [done|]; split; [cbn; repeat constructor; lia|done]).
  - split; [done|]. split; [done|]. split; [done|]. split.
    + intros c lo hi H1 H2. pose proof (lookup_lt_Some _ _ _ H2) as L. cbn in L. destruct c as [|[|c]]; [| |lia]; injection H1 as <-; injection H2 as <-; cbn; lia.
    + intros hf f H. pose proof (lookup_lt_Some _ _ _ H) as L. cbn in L. do 8 (destruct hf as [|hf]; [injection H as <-; cbn; lia|]). lia.
  - repeat (constructor; [lra|]). constructor.
  - intros hf hf' f H1 H2 Hbd. pose proof (lookup_lt_Some _ _ _ H1) as L1. pose proof (lookup_lt_Some _ _ _ H2) as L2. cbn in L1, L2. do 8 (destruct hf as [|hf]; [injection H1 as <-; do 8 (destruct hf' as [|hf']; [try done; try (injection H2; lia); destruct Hbd as [Hbd|Hbd]; discriminate Hbd|]); lia|]). lia.
Qed.
Example ex_row_side : (∃ hf f, side_half ex_row [0; 1; 2; 3; 0; 1; 2; 3]%Z ex_co 3 hf f) ∧ find_side ex_row 3 = Some [4; 6]%nat ∧ find_side ex_row 1 = Some [2%nat] ∧ find_side ex_row 0 = Some [].
Proof.
  split; [|done]. exists 3%nat, 4%nat, 0%nat. split; [cbn; lia|]. split; [done|]. split; [|done]. exists 0%nat, 4%nat. split; [done|]. split; [done|]. lia.
Qed.
(** A side of the box at which no cell is active: the flux is lost without a
    message. *)
Theorem C69_flux_lost_refuted : ∃ g tag co side flux, coordinates g co ∧ sized g tag ∧ (side < 2 * tg_dim g)%nat ∧ (0 < tg_nc g)%nat ∧ flux ≠ 0 ∧
  ∀ s o, flux_side BC_NOFLOW 0 0 0 g side flux s o = Some (true, s, o).
Proof.
  destruct ex_row_ok as (H1 & H2 & _). exists ex_row, [0; 1; 2; 3; 0; 1; 2; 3]%Z, ex_co, 0%nat, 1. split; [done|]. split; [done|]. split; [cbn; lia|]. split; [cbn; lia|]. split; [lra|]. done.
Qed.
Print Assumptions C69_flux_lost_refuted.
