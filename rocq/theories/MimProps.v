(** C61: the inner products of the mimetic method; gravity, mobilities. *)
From Coq Require Import Reals Lra Psatz.
From Verif Require Import Base LoopModel LoopProof TableModel CsrModel CsrSpec CsrProof GridModel GridSpec AccProof TofSpec TofProof CartGeomProof PolyModel PolySpec PolyProof PolyProps PolyCell PolyCellProps MimModel MimSpec MimLoop MimProof MimAlg MimGrid.
Unset Default Proof Using.
Local Open Scope R_scope.
Print Assumptions C61_matrices.

Section inner.
Variables (qr : nat → nat → list R → list R) (d nf nc max_nconn : nat) (pconn conn : list nat) (cf : list (list nat)) (fneighbour : list Z) (fcentroid fnormal farea ccentroid cvol perm : list R).
Hypothesis Hd : (0 < d ≤ 3)%nat.
Hypothesis Hcf : length cf = nc.
Hypothesis Hrows : holds_rows pconn conn cf.
Hypothesis Hmax : ∀ c row, cf !! c = Some row → (length row ≤ max_nconn)%nat.
Hypothesis Hfaces : ∀ c row f, cf !! c = Some row → f ∈ row → (f < nf)%nat.
Hypothesis Lnb : length fneighbour = (2 * nf)%nat.
Hypothesis Lfc : length fcentroid = (nf * d)%nat.
Hypothesis Lfn : length fnormal = (nf * d)%nat.
Hypothesis Lfa : length farea = nf.
Hypothesis Lcc : length ccentroid = (nc * d)%nat.
Hypothesis Lcv : length cvol = nc.
Hypothesis Lperm : length perm = (nc * (d * d))%nat.
Hypothesis Hvol : ∀ c v, cvol !! c = Some v → v ≠ 0.
Notation Nm c row := (cell_N d fneighbour fnormal c row).
Notation Cm c row := (cell_C d fcentroid ccentroid c row).
Notation Am row := (cell_A farea row).
Notation Km c := (cell_K d perm c).
(** The factorization of LAPACK does its work: for each cell its result has
    orthonormal columns that span those of the matrix given to it. *)
Hypothesis Lqr : ∀ n M, length M = (n * d)%nat → length (qr n d M) = (n * d)%nat.
Hypothesis Hqr : ∀ c row M, cf !! c = Some row → factored d fcentroid farea ccentroid row c M →
  orthonormal (length row) d (cell_Q qr d M (length row)) ∧ spans (length row) d (cell_Q qr d M (length row)) (λ i l, Cm c row i l * Am row i).

(** C61: the matrix of each cell is symmetric and nonnegative along with the
    permeability; if normals and centres of the faces fit together, it gives the
    exact fluxes for linear pressures, and is positive definite along with the
    permeability. *)
Theorem C61_inner junk o B0 : (start cf nc ≤ length B0)%nat → false ∉ o →
  ∃ B o', mim_ip_simple_all qr d pconn conn fneighbour fcentroid fnormal farea ccentroid cvol perm nc max_nconn junk o B0 = Some (B, o') ∧
    ∀ c row v, cf !! c = Some row → cvol !! c = Some v → ∃ b, holds_matrix B (start cf c) (length row) b ∧
      (symmetric d (Km c) → symmetric (length row) b) ∧
      (0 < v → nonnegative d (Km c) → nonnegative (length row) b) ∧
      (green (length row) d v (Nm c row) (Cm c row) → exact_for_linear (length row) d b (Nm c row) (Km c) (Cm c row)) ∧
      (green (length row) d v (Nm c row) (Cm c row) → 0 < v → (∀ i, (i < length row)%nat → Am row i ≠ 0) → definite d (Km c) → definite (length row) b).
Proof using Hd Hcf Hrows Hmax Hfaces Lnb Lfc Lfn Lfa Lcc Lcv Lperm Hvol Lqr Hqr.
  intros LB Ho. destruct (C61_matrices qr d nf nc max_nconn pconn conn cf fneighbour fcentroid fnormal farea ccentroid cvol perm Hd Hcf Hrows Hmax Hfaces Lnb Lfc Lfn Lfa Lcc Lcv Lperm Hvol Lqr junk o B0 LB) as (B & o' & E & _ & _ & [[Hf _]|H]); [done|].
  exists B, o'. split; [done|]. intros c row v Hrow Hv. destruct (H c row Hrow) as (M & v' & HM & Hv' & HB). rewrite Hv in Hv'. injection Hv' as <-. destruct (Hqr c row M Hrow HM) as [HQ HS].
  pose proof (Hvol c v Hv) as Hv0. eexists. split; [exact HB|]. split; [|split; [|split]].
  - by apply mimetic_symmetric.
  - intros Hp HK. apply mimetic_nonnegative; [lia|done|done|done].
  - intros HG. by apply mimetic_exact.
  - intros HG Hp HA HK. apply (mimetic_definite _ _ _ _ _ (Cm c row)); try done; lia.
Qed.
End inner.
Print Assumptions C61_inner.

(** ** In the grids of C59 normals and centres fit together *)
Lemma rsum_faces (h : nat → R) row : rsum h row = sum (length row) (λ i, h (face_no row i)).
Proof.
  induction row as [|f row IH]; [done|]. cbn [rsum length]. rewrite IH. unfold sum. cbn [seq rsum]. f_equal. rewrite <- fmap_S_seq, rsum_map. done.
Qed.
Lemma at3_comp l f v : at3 l f v → v = (comp 3 l f 0, comp 3 l f 1, comp 3 l f 2).
Proof.
  intros H. unfold at3 in H. unfold comp. pose proof (slice_lookup _ _ _ _ 0 H ltac:(lia)) as H0. pose proof (slice_lookup _ _ _ _ 1 H ltac:(lia)) as H1. pose proof (slice_lookup _ _ _ _ 2 H ltac:(lia)) as H2. cbn in H0, H1, H2.
  replace (0 + f * 3)%nat with (f + (f + (f + 0)) + 0)%nat by lia. replace (1 + f * 3)%nat with (f + (f + (f + 0)) + 1)%nat by lia. replace (2 + f * 3)%nat with (f + (f + (f + 0)) + 2)%nat by lia.
  rewrite H0, H1, H2. by destruct v as [[a b] e].
Qed.
Definition axis (k : nat) : vec := match k with 0%nat => (1, 0, 0) | 1%nat => (0, 1, 0) | _ => (0, 0, 1) end.
(** C61: the geometry computed by compute_geometry for cells with flat, star
    shaped faces meets the condition of C61_inner. *)
Theorem C61_geometry coords nodepos facenodes g cf nodes pt mN mC mA mc mv N C A cc cv :
  grid_ok g cf → (∀ f, (f < u_nf g)%nat → corners nodepos facenodes f (nodes f)) → (∀ f n, (f < u_nf g)%nat → n ∈ nodes f → at3 coords n (pt n)) →
  (∀ f, (f < u_nf g)%nat → 0 < fan_area (map pt (nodes f))) → (∀ f, (f < u_nf g)%nat → aligned (map pt (nodes f))) →
  (∀ c row, cf !! c = Some row → closed (map (λ f, (side g c f, nodes f)) row)) →
  (∀ c row, cf !! c = Some row → body_volume (0, 0, 0) (cell_sides g (λ f, map pt (nodes f)) c row) ≠ 0) →
  length mN = (3 * u_nf g)%nat → length mC = (3 * u_nf g)%nat → length mA = u_nf g → length mc = (3 * u_nc g)%nat → length mv = u_nc g →
  compute_geometry3 coords nodepos facenodes g mN mC mA mc mv = Some (N, C, A, cc, cv) →
  ∀ c row v, cf !! c = Some row → cv !! c = Some v → (∀ f, f ∈ row → ∃ k, flat_star k (map pt (nodes f))) →
  green (length row) 3 v (cell_N 3 (u_facecells g) N c row) (cell_C 3 C cc c row).
Proof.
  intros Hg Hcor Hpt Harea Hal Hcl Hvol LN LC LA Lc Lv E c row v Hrow Hv Hflat k l Hk Hl.
  assert (Hgeo : ∀ f, f ∈ row → at3 N f (comp 3 N f 0, comp 3 N f 1, comp 3 N f 2) ∧ at3 C f (comp 3 C f 0, comp 3 C f 1, comp 3 C f 2)).
  { intros f Hf. destruct (C58_faces coords nodepos facenodes (u_nf g) (poly nodes pt) (poly_ok coords nodepos facenodes g nodes pt Hcor Hpt) Harea mN mC mA LN LC LA) as (N' & C' & A' & E' & _ & _ & _ & HF).
    destruct (C59_geometry coords nodepos facenodes g cf Hg nodes pt Hcor Hpt Harea Hal Hcl Hvol mN mC mA mc mv LN LC LA Lc Lv) as (N2 & C2 & A2 & cc2 & cv2 & E2 & EF & _). rewrite E in E2. injection E2 as <- <- <- <- <-.
    rewrite EF in E'. injection E' as <- <- <-. destruct (HF f (row_lt g cf Hg c row f Hrow Hf)) as (H1 & _ & c' & H2 & _).
    pose proof (at3_comp _ _ _ H1) as E1. pose proof (at3_comp _ _ _ H2) as E2. rewrite <- E1, <- E2. done. }
  pose proof (C59_green coords nodepos facenodes g cf Hg nodes pt Hcor Hpt Harea Hal Hcl Hvol mN mC mA mc mv LN LC LA Lc Lv N C A cc cv E c row
    (λ f, (comp 3 N f 0, comp 3 N f 1, comp 3 N f 2)) (λ f, (comp 3 C f 0, comp 3 C f 1, comp 3 C f 2)) v Hrow Hgeo Hflat Hv (comp 3 cc c 0, comp 3 cc c 1, comp 3 cc c 2) (axis k) (axis l)) as HG.
  rewrite rsum_faces in HG.
  transitivity (vdot (axis k) (axis l) * v).
  2:{ destruct k as [|[|[|k]]], l as [|[|[|l]]]; try lia; unfold vdot, unit_entry; case_decide; try lia; cbn [axis fst snd]; ring. }
  rewrite <- HG. apply sum_ext. intros i _. unfold cell_N, cell_C, outward, side. set (f := face_no row i).
  assert (sgn (bool_decide (u_facecells g !! (2 * f)%nat = Some (Z.of_nat c))) = if decide (u_facecells g !! (2 * f)%nat = Some (Z.of_nat c)) then 1 else -1) as ->.
  { case_decide as Hc; [by rewrite bool_decide_true|by rewrite bool_decide_false]. }
  set (s := if decide _ then 1 else -1). destruct k as [|[|[|k]]], l as [|[|[|l]]]; try lia; unfold vdot, vsub, vadd, vscale; cbn [fst snd axis]; ring.
Qed.
Print Assumptions C61_geometry.

(** ** Gravity, mobilities, densities *)
Lemma upto_ok (f : nat → list R → option (list R)) (val : nat → R) b e X : (b ≤ e ≤ length X)%nat →
  (∀ i Y, (b ≤ i < e)%nat → length Y = length X → f i Y = upd Y i (val i)) →
  ∃ Y, upto e f (b, X) = Some (e, Y) ∧ length Y = length X ∧ (∀ i, (b ≤ i < e)%nat → Y !! i = Some (val i)) ∧ ∀ i, ¬ (b ≤ i < e)%nat → Y !! i = X !! i.
Proof.
  intros Hb Hf. unfold upto. cbn [fst snd]. destruct (fill_loop (e - b) b f (λ i, i) val X) as (Y & -> & L & H1 & H2); [intros; lia|done| |].
  - intros i Y Hi HL _ _. apply Hf; [lia|done].
  - cbn [mbind option_bind]. exists Y. split; [by rewrite Nat.max_r by lia|]. split; [done|]. split; [intros; apply H1; lia|]. intros i Hi. apply H2. lia.
Qed.
Section rows.
Variables (nc : nat) (pconn conn : list nat) (cf : list (list nat)).
Hypothesis Hcf : length cf = nc.
Hypothesis Hrows : holds_rows pconn conn cf.
Let off (c : nat) : nat := length (concat (take c cf)).
Lemma pconn_off c : (c ≤ nc)%nat → pconn !! c = Some (off c).
Proof using Hcf Hrows. intros Hc. destruct (holds_rows_unique _ _ _ Hrows) as [-> _]. by rewrite starts_take by lia. Qed.
Lemma off_S c row : cf !! c = Some row → off (c + 1) = (off c + length row)%nat.
Proof using. clear. intros H. unfold off. rewrite Nat.add_1_r, (take_S_r _ _ _ H), concat_app, app_length. cbn. rewrite app_nil_r. lia. Qed.
Lemma off_mono c c' : (c ≤ c')%nat → (off c ≤ off c')%nat.
Proof using. clear. intros H. unfold off. replace c' with (c + (c' - c))%nat by lia. rewrite <- (take_take_drop cf c (c' - c)), concat_app, app_length. lia. Qed.
Lemma conn_get c row t f : cf !! c = Some row → row !! t = Some f → conn !! (off c + t)%nat = Some f.
Proof using Hcf Hrows.
  intros Hr Ht. pose proof (lookup_lt_Some _ _ _ Hr). destruct Hrows as (_ & _ & _ & H0). destruct (H0 c row Hr) as (b & e & Hb & He & Hbe & Hs).
  rewrite pconn_off in Hb by lia. injection Hb as <-. rewrite (slice_lookup _ _ _ _ t Hs); [done|]. pose proof (slice_length _ _ _ _ Hs). pose proof (lookup_lt_Some _ _ _ Ht). lia.
Qed.
(** All connections, cell by cell. *)
Lemma upto_rows (f : nat → nat → list R → option (list R)) (val : nat → nat → R) X : (length conn ≤ length X)%nat →
  (∀ c row t Y, cf !! c = Some row → (t < length row)%nat → length Y = length X → f c (off c + t)%nat Y = upd Y (off c + t) (val c t)) →
  ∃ s, for_loop nc 0 (λ c s, e ← pconn !! (c + 1)%nat; upto e (f c) s) (0%nat, X) = Some s ∧ length s.2 = length X ∧
    (∀ c row t, cf !! c = Some row → (t < length row)%nat → s.2 !! (off c + t)%nat = Some (val c t)) ∧ ∀ i, (length conn ≤ i)%nat → s.2 !! i = X !! i.
Proof using Hcf Hrows.
  intros LX Hf. assert (Hconn : length conn = off nc). { destruct (holds_rows_unique _ _ _ Hrows) as [_ ->]. unfold off. by rewrite take_ge by lia. }
  destruct (for_loop_inv (λ c s, s.1 = off c ∧ length s.2 = length X ∧ (∀ c' row t, (c' < c)%nat → cf !! c' = Some row → (t < length row)%nat → s.2 !! (off c' + t)%nat = Some (val c' t)) ∧ ∀ i, (off c ≤ i)%nat → s.2 !! i = X !! i)
    nc 0 (λ c s, e ← pconn !! (c + 1)%nat; upto e (f c) s) (0%nat, X)) as (s & -> & E1 & E2 & E3 & E4).
  - split; [done|]. split; [done|]. split; [intros; lia|done].
  - intros c [p Y] Hc (Hp & LY & HY & HU). cbn [fst snd] in *. subst p. destruct (lookup_lt_is_Some_2 cf c ltac:(lia)) as [row Hrow]. pose proof (off_S c row Hrow) as HS. pose proof (off_mono (c + 1) nc ltac:(lia)) as HM.
    rewrite (pconn_off (c + 1)) by lia. cbn [mbind option_bind]. destruct (upto_ok (f c) (λ i, val c (i - off c)%nat) (off c) (off (c + 1)) Y) as (Z & -> & LZ & H1 & H2).
    + lia.
    + intros i Y' Hi L'. replace i with (off c + (i - off c))%nat at 1 2 by lia. apply (Hf c row); [done|lia|lia].
    + exists (off (c + 1)%nat, Z). cbn [fst snd]. split; [done|]. split; [done|]. split; [lia|]. split.
      * intros c' row' t Hc' Hr' Ht. destruct (decide (c' = c)) as [->|Hne].
        -- rewrite Hrow in Hr'. injection Hr' as <-. rewrite H1 by lia. f_equal. f_equal. lia.
        -- rewrite H2; [apply (HY c' row'); [lia|done|done]|]. pose proof (off_S c' row' Hr'). pose proof (off_mono (c' + 1) c ltac:(lia)). lia.
      * intros i Hi. rewrite H2 by lia. apply HU. lia.
  - exists s. split; [done|]. split; [done|]. split; [|intros i Hi; apply E4; change (0 + nc)%nat with nc; lia]. intros c row t Hr Ht. apply (E3 c row); [|done|done]. apply lookup_lt_Some in Hr. lia.
Qed.

(** C61: the gravity term of face [f] in cell [c] is the product of gravity and
    the way from the centre of [c] to that of [f]. *)
Theorem C61_gravity d nf grav fcentroid ccentroid gpress : (∀ c row f, cf !! c = Some row → f ∈ row → (f < nf)%nat) →
  length grav = d → length fcentroid = (nf * d)%nat → length ccentroid = (nc * d)%nat → (length conn ≤ length gpress)%nat →
  ∃ gpress', mim_ip_compute_gpress nc d grav pconn conn fcentroid ccentroid gpress = Some gpress' ∧ length gpress' = length gpress ∧
    (∀ c row p t f, cf !! c = Some row → pconn !! c = Some p → row !! t = Some f →
       gpress' !! (p + t)%nat = Some (sum d (λ j, default 0 (grav !! j) * (comp d fcentroid f j - comp d ccentroid c j)))) ∧
    ∀ i, (length conn ≤ i)%nat → gpress' !! i = gpress !! i.
Proof using Hcf Hrows.
  intros Hfaces Lg LF LC LX. unfold mim_ip_compute_gpress.
  destruct (upto_rows (λ c i gpress, f ← conn !! i; gpress ← upd gpress i 0;
      for_loop d 0 (λ j gpress, g ← grav !! j; x ← fcentroid !! (f * d + j)%nat; y ← ccentroid !! (c * d + j)%nat; v ← gpress !! i; upd gpress i (v + g * (x - y))) gpress)
    (λ c t, sum d (λ j, default 0 (grav !! j) * (comp d fcentroid (face_no (default [] (cf !! c)) t) j - comp d ccentroid c j))) gpress LX) as (s & -> & L & H1 & H2).
  - intros c row t Y Hr Ht LY. rewrite Hr. change (default [] (Some row)) with row. destruct (lookup_lt_is_Some_2 row t Ht) as [f Hf]. unfold face_no. rewrite Hf. change (default 0%nat (Some f)) with f. pose proof (conn_get c row t f Hr Hf) as Hc. rewrite Hc. cbn [mbind option_bind].
    pose proof (lookup_lt_Some _ _ _ Hc) as Hlt. pose proof (lookup_lt_Some _ _ _ Hr) as Hcl. pose proof (Hfaces c row f Hr (elem_of_list_lookup_2 _ _ _ Hf)) as Hff. set (i := (off c + t)%nat) in *.
    rewrite upd_Some by lia. cbn [mbind option_bind].
    destruct (for_loop_inv (λ j Z, Z = <[i := sum j (λ j, default 0 (grav !! j) * (comp d fcentroid f j - comp d ccentroid c j))]> Y) d 0
      (λ j gpress, g ← grav !! j; x ← fcentroid !! (f * d + j)%nat; y ← ccentroid !! (c * d + j)%nat; v ← gpress !! i; upd gpress i (v + g * (x - y))) (<[i:=0]> Y)) as (Z & -> & ->).
    + done.
    + intros j Z Hj ->. destruct (lookup_lt_is_Some_2 grav j ltac:(lia)) as [g Hg]. rewrite Hg. cbn [mbind option_bind].
      replace (f * d + j)%nat with (j + f * d)%nat by lia. replace (c * d + j)%nat with (j + c * d)%nat by lia. rewrite (comp_get d fcentroid f j nf), (comp_get d ccentroid c j nc) by (done || lia). cbn [mbind option_bind].
      rewrite list_lookup_insert by lia. cbn [mbind option_bind]. rewrite upd_Some by (rewrite insert_length; lia). eexists. split; [done|]. rewrite list_insert_insert. f_equal.
      unfold sum. rewrite Nat.add_1_r, seq_S, rsum_app. cbn [rsum]. replace (0 + j)%nat with j by lia. rewrite Hg. change (default 0 (Some g)) with g. lra.
    + rewrite upd_Some by lia. done.
  - exists s.2. split; [done|]. split; [done|]. split; [|done]. intros c row p t f Hr Hp Ht. pose proof (lookup_lt_Some _ _ _ Hr). rewrite pconn_off in Hp by lia. injection Hp as <-.
    rewrite (H1 c row t Hr (lookup_lt_Some _ _ _ Ht)), Hr. change (default [] (Some row)) with row. unfold face_no. by rewrite Ht.
Qed.
(** C61: the gravity terms of each cell are scaled by its density. *)
Theorem C61_density omega gpress0 gpress : length omega = nc → (length conn ≤ length gpress0)%nat → (length conn ≤ length gpress)%nat →
  ∃ gpress', mim_ip_density_update nc pconn omega gpress0 gpress = Some gpress' ∧ length gpress' = length gpress ∧
    (∀ c row p t w x, cf !! c = Some row → pconn !! c = Some p → (t < length row)%nat → omega !! c = Some w → gpress0 !! (p + t)%nat = Some x →
       gpress' !! (p + t)%nat = Some (w * x)) ∧
    ∀ i, (length conn ≤ i)%nat → gpress' !! i = gpress !! i.
Proof using Hcf Hrows.
  intros LO L0 LX. unfold mim_ip_density_update.
  destruct (upto_rows (λ c i gpress, w ← omega !! c; x ← gpress0 !! i; upd gpress i (w * x)) (λ c t, default 0 (omega !! c) * default 0 (gpress0 !! (off c + t)%nat)) gpress LX) as (s & -> & L & H1 & H2).
  - intros c row t Y Hr Ht LY. pose proof (lookup_lt_Some _ _ _ Hr). destruct (lookup_lt_is_Some_2 omega c ltac:(lia)) as [w Hw]. destruct (lookup_lt_is_Some_2 row t Ht) as [f Hf]. pose proof (lookup_lt_Some _ _ _ (conn_get c row t f Hr Hf)).
    destruct (lookup_lt_is_Some_2 gpress0 (off c + t) ltac:(lia)) as [x Hx]. by rewrite Hw, Hx.
  - exists s.2. split; [done|]. split; [done|]. split; [|done]. intros c row p t w x Hr Hp Ht Hw Hx. pose proof (lookup_lt_Some _ _ _ Hr). rewrite pconn_off in Hp by lia. injection Hp as <-.
    by rewrite (H1 c row t Hr Ht), Hw, Hx.
Qed.
(** C61: the matrix of each cell is scaled by its mobility. *)
Theorem C61_mobility totmob Binv0 Binv : length totmob = nc → (start cf nc ≤ length Binv0)%nat → (start cf nc ≤ length Binv)%nat →
  ∃ Binv', mim_ip_mobility_update nc pconn totmob Binv0 Binv = Some Binv' ∧ length Binv' = length Binv ∧
    (∀ c row m b, cf !! c = Some row → totmob !! c = Some m → holds_matrix Binv0 (start cf c) (length row) b → holds_matrix Binv' (start cf c) (length row) (λ i j, m * b i j)) ∧
    ∀ i, (start cf nc ≤ i)%nat → Binv' !! i = Binv !! i.
Proof using Hcf Hrows.
  intros LM L0 LX. unfold mim_ip_mobility_update.
  set (body := λ c '(p2, Binv), e ← pconn !! (c + 1)%nat; b ← pconn !! c; let n := (e - b)%nat in
    Binv ← for_loop (n * n) 0 (λ i Binv, m ← totmob !! c; x ← Binv0 !! (p2 + i)%nat; upd Binv (p2 + i) (m * x)) Binv; Some ((p2 + n * n)%nat, Binv)).
  destruct (for_loop_inv (λ c s, s.1 = start cf c ∧ length s.2 = length Binv ∧ (∀ c' row m k x, (c' < c)%nat → cf !! c' = Some row → totmob !! c' = Some m → (k < length row * length row)%nat → Binv0 !! (start cf c' + k)%nat = Some x → s.2 !! (start cf c' + k)%nat = Some (m * x)) ∧ ∀ i, (start cf c ≤ i)%nat → s.2 !! i = Binv !! i)
    nc 0 body (0%nat, Binv)) as ([p Z] & -> & E1 & E2 & E3 & E4).
  - split; [done|]. split; [done|]. split; [intros; lia|done].
  - intros c [p Y] Hc (Hp & LY & HY & HU). cbn [fst snd] in *. subst p. destruct (lookup_lt_is_Some_2 cf c ltac:(lia)) as [row Hrow]. pose proof (start_S cf c row Hrow) as HS. pose proof (start_mono cf (c + 1) nc ltac:(lia)) as HM.
    unfold body. rewrite (pconn_off (c + 1)), (pconn_off c) by lia. cbn [mbind option_bind]. rewrite (off_S c row Hrow). replace (off c + length row - off c)%nat with (length row) by lia. cbn zeta.
    destruct (lookup_lt_is_Some_2 totmob c ltac:(lia)) as [m Hm]. rewrite Hm. cbn [mbind option_bind].
    destruct (fill_loop (length row * length row) 0 (λ i Binv, x ← Binv0 !! (start cf c + i)%nat; upd Binv (start cf c + i) (m * x)) (λ i, (start cf c + i)%nat) (λ i, m * default 0 (Binv0 !! (start cf c + i)%nat)) Y) as (Z & -> & LZ & H1 & H2).
    + intros; lia.
    + intros; lia.
    + intros i Z Hi LZ _ _. destruct (lookup_lt_is_Some_2 Binv0 (start cf c + i) ltac:(lia)) as [x Hx]. by rewrite Hx.
    + cbn [mbind option_bind]. eexists. split; [done|]. cbn [fst snd]. split; [lia|]. split; [lia|]. split.
      * intros c' row' m' k x Hc' Hr' Hm' Hk Hx. destruct (decide (c' = c)) as [->|Hne].
        -- rewrite Hrow in Hr'. injection Hr' as <-. rewrite Hm in Hm'. injection Hm' as <-. by rewrite H1, Hx by lia.
        -- pose proof (start_S cf c' row' Hr'). pose proof (start_mono cf (c' + 1) c ltac:(lia)). rewrite H2 by (intros; lia). apply (HY c' row'); try done; lia.
      * intros i Hi. rewrite H2 by (intros; lia). apply HU. lia.
  - cbn [mbind option_bind fst snd] in *. exists Z. split; [done|]. split; [done|]. split; [|intros i Hi; apply E4; change (0 + nc)%nat with nc; lia]. intros c row m b Hr Hm Hb i j Hi Hj. apply (E3 c row); [|done|done| |by apply Hb].
    + apply lookup_lt_Some in Hr. lia.
    + assert (length row * (j + 1) ≤ length row * length row)%nat by (apply Nat.mul_le_mono_l; lia). lia.
Qed.
End rows.
Print Assumptions C61_gravity.
Print Assumptions C61_density.
Print Assumptions C61_mobility.

(** ** A square of side 1 with a full permeability tensor *)
Definition sq_h : R := R_sqrt.sqrt (1 / 2).
Lemma sq_hh : sq_h * sq_h = 1 / 2.
Proof. unfold sq_h. apply R_sqrt.sqrt_sqrt. lra. Qed.
Definition sq_qr (n d : nat) (M : list R) : list R := if decide ((n, d) = (4, 2)%nat) then [- sq_h; sq_h; 0; 0; 0; 0; - sq_h; sq_h] else M.
Definition sq_faces : list (list nat) := [[0; 1; 2; 3]%nat].
Definition sq_nb : list Z := [-1; 0; 0; -1; -1; 0; 0; -1]%Z.
Definition sq_fc : list R := [0; 1/2; 1; 1/2; 1/2; 0; 1/2; 1].
Definition sq_fn : list R := [1; 0; 1; 0; 0; 1; 0; 1].
Definition sq_perm : list R := [2; 1; 1; 3].
Ltac sq_sums := unfold sum; cbn [seq rsum].
Ltac sq_lra := cbn; repeat match goal with |- context [decide ?P] => first [rewrite (decide_True (P := P)) by done | rewrite (decide_False (P := P)) by done] end; cbn; lra.
Ltac sq_cases k := destruct k as [|[|[|[|k]]]]; try lia.
Lemma sq_green : green 4 2 1 (cell_N 2 sq_nb sq_fn 0 [0; 1; 2; 3]%nat) (cell_C 2 sq_fc [1/2; 1/2] 0 [0; 1; 2; 3]%nat).
Proof. intros k l Hk Hl. sq_cases k; sq_cases l; sq_sums; unfold cell_N, cell_C, outward, comp, unit_entry; sq_lra. Qed.
(** All conditions of C61_inner hold, and the matrix is definite and exact. *)
Example C61_square junk : ∃ B o', mim_ip_simple_all sq_qr 2 [0; 4]%nat [0; 1; 2; 3]%nat sq_nb sq_fc sq_fn [1; 1; 1; 1] [1/2; 1/2] [1] sq_perm 1 4 junk (replicate 10 true) (replicate 16 7) = Some (B, o') ∧
  ∃ b, holds_matrix B 0 4 b ∧ symmetric 4 b ∧ definite 4 b ∧ exact_for_linear 4 2 b (cell_N 2 sq_nb sq_fn 0 [0; 1; 2; 3]%nat) (cell_K 2 sq_perm 0) (cell_C 2 sq_fc [1/2; 1/2] 0 [0; 1; 2; 3]%nat).
Proof.
  destruct (C61_inner sq_qr 2 4 1 4 [0; 4]%nat [0; 1; 2; 3]%nat sq_faces sq_nb sq_fc sq_fn [1; 1; 1; 1] [1/2; 1/2] [1] sq_perm) with (junk := junk) (o := replicate 10 true) (B0 := replicate 16 7) as (B & o' & E & H); try done; try lia.
  - apply (starts_holds sq_faces).
  - intros c row Hr. destruct c; [|done]. injection Hr as <-. cbn. lia.
  - intros c row f Hr Hf. destruct c; [|done]. injection Hr as <-. repeat (apply elem_of_cons in Hf as [->|Hf]; [lia|]). by apply elem_of_nil in Hf.
  - intros c v Hv. destruct c; [|done]. injection Hv as <-. lra.
  - intros n M HM. unfold sq_qr. case_decide as Hc; [|done]. injection Hc as ->. done.
  - intros c row M Hr [LM HM]. destruct c; [|done]. injection Hr as <-. pose proof sq_hh as Hh. split.
    + intros k l Hk Hl. sq_cases k; sq_cases l; sq_sums; unfold cell_Q, sq_qr, unit_entry; sq_lra.
    + exists (λ k l, unit_entry k l * sq_h). intros i l Hi Hl. cbn [length] in Hi. sq_cases i; sq_cases l; sq_sums; unfold cell_Q, sq_qr, unit_entry, cell_C, comp, cell_A; sq_lra.
  - intros Hf. apply elem_of_replicate in Hf as [? _]. done.
  - exists B, o'. split; [exact E|]. destruct (H 0%nat [0; 1; 2; 3]%nat 1 eq_refl eq_refl) as (b & Hb & H1 & _ & H3 & H4). exists b. split; [exact Hb|].
    split; [apply H1; intros i j Hi Hj; sq_cases i; sq_cases j; unfold cell_K; sq_lra|]. split; [|apply H3, sq_green]. apply H4; [exact sq_green|lra| |].
    + intros i Hi. cbn [length] in Hi. sq_cases i; unfold cell_A; sq_lra.
    + intros x (i & Hi & Hx). unfold quad. sq_sums. unfold cell_K. cbn. assert (0 < x 0%nat * x 0%nat ∨ 0 < x 1%nat * x 1%nat) as Hp. { clear - Hi Hx. sq_cases i; [left|right]; nra. }
      clear - Hp. generalize dependent (x 1%nat). generalize (x 0%nat). clear. intros a e Hp.
      pose proof (Rle_0_sqr (a + e)). pose proof (Rle_0_sqr a). pose proof (Rle_0_sqr e). unfold Rsqr in *. destruct Hp; nra.
Qed.
(** Gravity 10 along the second axis: 5 at the face at the end of that axis;
    density 3 makes it 15; mobility 2 doubles the matrices. *)
Example C61_square_gravity : ∃ g g', mim_ip_compute_gpress 1 2 [0; 10] [0; 4]%nat [0; 1; 2; 3]%nat sq_fc [1/2; 1/2] [9; 9; 9; 9; 8] = Some g ∧ g !! 2%nat = Some (-5) ∧ g !! 3%nat = Some 5 ∧ g !! 4%nat = Some 8 ∧
  mim_ip_density_update 1 [0; 4]%nat [3] g [9; 9; 9; 9] = Some g' ∧ g' !! 3%nat = Some 15.
Proof.
  destruct (C61_gravity 1 [0; 4]%nat [0; 1; 2; 3]%nat sq_faces eq_refl (starts_holds sq_faces) 2 4 [0; 10] sq_fc [1/2; 1/2] [9; 9; 9; 9; 8]) as (g & E & L & H & HU); try done; [|cbn; lia|].
  { intros c row f Hr Hf. destruct c; [|done]. injection Hr as <-. repeat (apply elem_of_cons in Hf as [->|Hf]; [lia|]). by apply elem_of_nil in Hf. }
  destruct (C61_density 1 [0; 4]%nat [0; 1; 2; 3]%nat sq_faces eq_refl (starts_holds sq_faces) [3] g [9; 9; 9; 9]) as (g' & E' & L' & H' & _); [done|rewrite L; cbn; lia|cbn; lia|].
  assert (G3 : g !! 3%nat = Some 5).
  { pose proof (H 0%nat [0; 1; 2; 3]%nat 0%nat 3%nat 3%nat eq_refl eq_refl eq_refl) as H3. change (0 + 3)%nat with 3%nat in H3. rewrite H3. f_equal. sq_sums. unfold comp. cbn. lra. }
  exists g, g'. split; [exact E|]. split.
  { pose proof (H 0%nat [0; 1; 2; 3]%nat 0%nat 2%nat 2%nat eq_refl eq_refl eq_refl) as H3. change (0 + 2)%nat with 2%nat in H3. rewrite H3. f_equal. sq_sums. unfold comp. cbn. lra. }
  split; [exact G3|]. split; [rewrite HU; [done|cbn; lia]|]. split; [exact E'|].
  pose proof (H' 0%nat [0; 1; 2; 3]%nat 0%nat 3%nat 3 5 eq_refl eq_refl ltac:(cbn; lia) eq_refl G3) as H3. change (0 + 3)%nat with 3%nat in H3. rewrite H3. f_equal. lra.
Qed.
