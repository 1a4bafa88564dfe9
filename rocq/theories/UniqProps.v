(** C37: the points of the pillars of a corner-point grid and their numbers. *)
From Coq Require Import Reals Lra.
From Verif Require Import Base LoopModel LoopProof UniqModel UniqSpec UniqProof UniqFind UniqLoop PillarModel.
Unset Default Proof Using.

Section props.
Context {V : Type} (lt : V → V → Prop) `{!RelDecision lt} (shift : V → V) (qsort : list V → list V) (interp : list V → V → V * V).
Hypothesis laws : depth_laws lt shift.
Hypothesis Hsort : sorts lt qsort.
Variables (junk : V) (nx ny nz : nat) (coord zcorn : list V) (actnum : list Z).
Hypothesis Hin : input_sizes nx ny nz coord zcorn actnum.
Notation run := (finduniquepoints lt shift qsort interp junk nx ny nz coord zcorn actnum).

(** finduniquepoints never fails, writes within its arrays, and numbers the
    points of the pillars as specified. Nothing is assumed of the depths. *)
Theorem C37_numbering plist : length plist = 8 * (nx * ny * nz + nx * ny) → ∃ u P, run plist = Some u ∧ u_ok u = true ∧ length (u_plist u) = length plist ∧ length (u_nodes u) = 24 * (nx * ny * nz) ∧
  right_numbering lt shift interp nx ny nz coord zcorn actnum P u.
Proof. intros Hpl. destruct (find_ok lt shift qsort interp laws Hsort junk nx ny nz coord zcorn actnum Hin plist Hpl) as (u & E & H1 & H2 & H3 & H4). by exists u, ((pts lt shift qsort nx ny nz zcorn actnum) <$> seq 0 ((nx + 1) * (ny + 1))). Qed.

Section found.
Variables (u : upoints (V := V)) (P : list (list V)).
Hypothesis HP : right_numbering lt shift interp nx ny nz coord zcorn actnum P u.

(** If the active corners above corner [k] are no deeper than it, it gets the
    first point of its pillar within the tolerance of its own depth. *)
Theorem C37_near i j k z L : corner nx ny nz i j k → active nx nz actnum i j k → depth nx nz zcorn i j k z → falling lt nx nz zcorn actnum i j k →
  P !! pillar nx i j = Some L → ∃ n, belongs lt shift L n z ∧ number nx nz (u_plist u) i j k (Z.of_nat (length (concat (take (pillar nx i j) P)) + n)).
Proof using HP laws.
  intros Hc Ha Hd Hf HL. destruct (rn_active _ _ _ _ _ _ _ _ _ _ _ HP i j k z Hc Ha Hd) as (L' & v & n & HL' & Hv & -> & (k' & z' & Hk' & Ha' & Hd' & Hb') & Hmax).
  rewrite HL in HL'. injection HL' as <-. exists n. split; [|done]. assert (Hle : ¬ lt z z') by (by apply (Hf k' k)).
  destruct (rp_near _ _ _ _ _ _ _ _ _ (rn_points _ _ _ _ _ _ _ _ _ _ _ HP _ _ HL) z) as [m Hm]; [by exists i, j, k|].
  assert (m ≤ n) by (by apply (Hmax k z)). assert (n ≤ m) by (by eapply (belongs_mono lt shift laws L n m z' z)). by replace n with m by lia.
Qed.

(** So two active corners of a pillar have the same number exactly if the same
    point is the first within the tolerance of both; equal depths always do. *)
Theorem C37_merge i j k z i' j' k' z' L v v' :
  corner nx ny nz i j k → active nx nz actnum i j k → depth nx nz zcorn i j k z → falling lt nx nz zcorn actnum i j k →
  corner nx ny nz i' j' k' → active nx nz actnum i' j' k' → depth nx nz zcorn i' j' k' z' → falling lt nx nz zcorn actnum i' j' k' →
  P !! pillar nx i j = Some L → pillar nx i j = pillar nx i' j' →
  number nx nz (u_plist u) i j k v → number nx nz (u_plist u) i' j' k' v' →
  v = v' ↔ ∃ n, belongs lt shift L n z ∧ belongs lt shift L n z'.
Proof using HP laws.
  intros Hc Ha Hd Hf Hc' Ha' Hd' Hf' HL Hq Hv Hv'. destruct (C37_near i j k z L Hc Ha Hd Hf HL) as (n & Hn & E). rewrite Hq in HL. destruct (C37_near i' j' k' z' L Hc' Ha' Hd' Hf' HL) as (n' & Hn' & E').
  unfold number in *. rewrite E in Hv. injection Hv as <-. rewrite E' in Hv'. injection Hv' as <-. rewrite Hq. split.
  - intros Heq. exists n. split; [done|]. by replace n with n' by lia.
  - intros (m & Hm & Hm'). rewrite (belongs_unique lt shift _ _ _ _ Hn Hm), (belongs_unique lt shift _ _ _ _ Hn' Hm'). done.
Qed.

(** Active corners of different pillars never share a number. *)
Theorem C37_apart i j k z i' j' k' z' v :
  corner nx ny nz i j k → active nx nz actnum i j k → depth nx nz zcorn i j k z →
  corner nx ny nz i' j' k' → active nx nz actnum i' j' k' → depth nx nz zcorn i' j' k' z' →
  number nx nz (u_plist u) i j k v → number nx nz (u_plist u) i' j' k' v → pillar nx i j = pillar nx i' j'.
Proof using HP.
  intros Hc Ha Hd Hc' Ha' Hd' Hv Hv'.
  destruct (rn_active _ _ _ _ _ _ _ _ _ _ _ HP i j k z Hc Ha Hd) as (L & v1 & n & HL & Hv1 & E1 & (_ & _ & _ & _ & _ & ((y & Hy & _) & _)) & _).
  destruct (rn_active _ _ _ _ _ _ _ _ _ _ _ HP i' j' k' z' Hc' Ha' Hd') as (L' & v2 & n' & HL' & Hv2 & E2 & (_ & _ & _ & _ & _ & ((y' & Hy' & _) & _)) & _).
  unfold number in *. rewrite Hv1 in Hv. injection Hv as ->. rewrite Hv2 in Hv'. injection Hv' as ->. rewrite E1 in E2. apply Nat2Z.inj in E2.
  assert (G : ∀ q q' (M : list V) m m', P !! q = Some M → m < length M → q < q' → length (concat (take q P)) + m < length (concat (take q' P)) + m').
  { intros q q' M m m' HM Hm Hqq. replace q' with (S q + (q' - S q)) by lia. rewrite <- take_take_drop, concat_app, app_length. rewrite (take_S_r _ _ _ HM), concat_app, app_length. cbn [concat]. rewrite app_nil_r. lia. }
  apply lookup_lt_Some in Hy, Hy'. destruct (Nat.lt_trichotomy (pillar nx i j) (pillar nx i' j')) as [H|[H|H]]; [|done|].
  - pose proof (G _ _ _ n n' HL Hy H). lia.
  - pose proof (G _ _ _ n' n HL' Hy' H). lia.
Qed.

(** Every number lies in range, and down a column, padding included, numbers do
    not decrease (the number of points being an int). *)
Theorem C37_monotone i j k v w : (Z.of_nat (u_num u) ≤ int_max)%Z → i < 2 * nx → j < 2 * ny → k ≤ 2 * nz →
  u_plist u !! ((2 * nz + 2) * (i + 2 * nx * j) + k) = Some v → number nx nz (u_plist u) i j k w → (v ≤ w)%Z.
Proof using HP Hin.
  intros Hn Hi Hj Hk. set (q := pillar nx i j). destruct (lookup_lt_is_Some_2 P q) as [L HL]. { rewrite (rn_pillars _ _ _ _ _ _ _ _ _ _ _ HP). by apply pillar_lt. }
  destruct (rn_pad _ _ _ _ _ _ _ _ _ _ _ HP i j Hi Hj) as [Hlo Hhi].
  (* the state above a corner: nothing active yet, or the number of the last active one *)
  assert (G : ∀ k, k ≤ 2 * nz → ∃ v, u_plist u !! ((2 * nz + 2) * (i + 2 * nx * j) + k) = Some v ∧ (v ≤ int_max)%Z ∧
    (v = int_min ∨ ∃ n, v = Z.of_nat (length (concat (take q P)) + n) ∧ ∃ k' z', k' < k ∧ active nx nz actnum i j k' ∧ depth nx nz zcorn i j k' z' ∧ belongs lt shift L n z')).
  { clear k Hk. intros k. induction k as [|k IH]; intros Hk.
    - exists int_min. rewrite Nat.add_0_r. split; [done|]. split; [done|]. by left.
    - assert (Hc : corner nx ny nz i j k) by (split; [done|split; [done|lia]]). destruct (active_dec nx nz actnum i j k) as [Ha|Ha].
      + destruct (depth_total nx ny nz coord zcorn actnum Hin i j k Hc) as [z Hz]. destruct (rn_active _ _ _ _ _ _ _ _ _ _ _ HP i j k z Hc Ha Hz) as (L' & v1 & n & HL' & Hv1 & E1 & (k' & z' & Hk' & Ha' & Hz' & Hb) & _). fold q in HL', E1. rewrite HL in HL'. injection HL' as <-.
        exists v1. unfold number in Hv1. replace ((2 * nz + 2) * (i + 2 * nx * j) + S k) with ((2 * nz + 2) * (i + 2 * nx * j) + 1 + k) by lia. split; [done|]. split.
        * destruct Hb as ((y & Hy & _) & _). assert (length (concat (take q P)) + n < u_num u); [|lia]. rewrite (rn_num _ _ _ _ _ _ _ _ _ _ _ HP). rewrite <- (take_drop q P) at 2. rewrite concat_app, app_length. rewrite (drop_S _ _ _ HL). cbn [concat]. rewrite app_length. apply lookup_lt_Some in Hy. lia.
        * right. exists n. split; [done|]. exists k', z'. split; [lia|done].
      + destruct (rn_inactive _ _ _ _ _ _ _ _ _ _ _ HP i j k Hc Ha) as (v1 & Hv1 & Hv2). unfold number in Hv1. destruct IH as (v2 & Hv3 & Hmx & Hor); [lia|]. rewrite Hv3 in Hv2. injection Hv2 as ->.
        exists v1. replace ((2 * nz + 2) * (i + 2 * nx * j) + S k) with ((2 * nz + 2) * (i + 2 * nx * j) + 1 + k) by lia. split; [done|]. split; [done|]. destruct Hor as [?|(n & -> & k' & z' & ? & ?)]; [by left|]. right. exists n. split; [done|]. exists k', z'. split; [lia|done]. }
  destruct (G k Hk) as (v' & Ev & Hmx & Hor). intros Hv Hw. rewrite Ev in Hv. injection Hv as ->. unfold number in Hw.
  destruct (decide (k = 2 * nz)) as [->|Hk2]; [rewrite Hhi in Hw; by injection Hw as <-|].
  assert (Hc : corner nx ny nz i j k) by (split; [done|split; [done|lia]]). destruct (active_dec nx nz actnum i j k) as [Ha|Ha].
  - destruct (depth_total nx ny nz coord zcorn actnum Hin i j k Hc) as [z Hz]. destruct (rn_active _ _ _ _ _ _ _ _ _ _ _ HP i j k z Hc Ha Hz) as (L' & v1 & n & HL' & Hv1 & E1 & _ & Hmax). unfold number in Hv1. fold q in HL', E1. rewrite HL in HL'. injection HL' as <-. rewrite Hw in Hv1. injection Hv1 as ->.
    destruct Hor as [->|(m & -> & k' & z' & Hk' & Ha' & Hz' & Hb)]; [unfold int_min; lia|]. assert (m ≤ n) by (apply (Hmax k' z'); [lia|done..]). lia.
  - destruct (rn_inactive _ _ _ _ _ _ _ _ _ _ _ HP i j k Hc Ha) as (v1 & Hv1 & Hv2). unfold number in Hv1. rewrite Ev in Hv2. injection Hv2 as ->. rewrite Hw in Hv1. injection Hv1 as ->. done.
Qed.
End found.
End props.
Print Assumptions C37_numbering.
Print Assumptions C37_near.
Print Assumptions C37_merge.
Print Assumptions C37_apart.
Print Assumptions C37_monotone.

(** ** Real depths *)
Lemma real_laws (tol : R) : (0 <= tol)%R → depth_laws Rlt (λ z, z + tol)%R.
Proof. intros Ht. split; intros; try lra. Qed.

(** With real coordinates the nodes of a pillar lie on the line through the two
    points that define it, at the depths of the points. *)
Definition on_line (c : list R) (p : list R) : Prop :=
  ∃ x0 y0 z0 x1 y1 z1 t, c = [x0; y0; z0; x1; y1; z1] ∧ p = [x0 + t * (x1 - x0); y0 + t * (y1 - y0); z0 + t * (z1 - z0)]%R.
Theorem C37_nodes_on_pillars (tol : R) nx ny nz coord zcorn actnum P u q L n z c : right_numbering Rlt (λ z, z + tol)%R interpolate_pillar nx ny nz coord zcorn actnum P u →
  P !! q = Some L → L !! n = Some z → slice coord (6 * q) 6 = Some c → c !! 2 ≠ c !! 5 →
  ∃ p, slice (u_nodes u) (3 * (length (concat (take q P)) + n)) 3 = Some p ∧ p !! 2 = Some z ∧ on_line c p.
Proof.
  intros HP HL Hz Hc Hne. destruct (rn_nodes _ _ _ _ _ _ _ _ _ _ _ HP q L n z HL Hz) as (c' & x & y & Hc' & Hi & Hs). rewrite Hc in Hc'. injection Hc' as <-.
  exists [x; y; z]. split; [done|]. split; [done|]. assert (length c = 6) as Hl by (by eapply slice_length).
  destruct c as [|x0 [|y0 [|z0 [|x1 [|y1 [|z1 [|? ?]]]]]]]; try done. unfold interpolate_pillar in Hi. cbn in Hi. cbn in Hne.
  assert (z1 - z0 ≠ 0)%R as Hd. { intros ?. apply Hne. f_equal. lra. } destruct (Rlt_dec 0 (Rabs (z1 - z0))) as [_|Hno]; [|destruct Hno; by apply Rabs_pos_lt].
  injection Hi as <- <-. exists x0, y0, z0, x1, y1, z1, ((z - z0) / (z1 - z0))%R. split; [done|]. assert (Ez : (z = z0 + (z - z0) / (z1 - z0) * (z1 - z0))%R) by (field; done). rewrite <- Ez. f_equal; [ring|]. f_equal. ring.
Qed.
Print Assumptions C37_nodes_on_pillars.

(** ** A case meeting the hypotheses: two cells in a row over two layers, the
    lower right one inactive, integer depths and tolerance 1. *)
Definition zlt : Z → Z → Prop := Z.lt.
Definition zsort : list Z → list Z := merge_sort Z.le.
Lemma z_laws (tol : Z) : (0 ≤ tol)%Z → depth_laws Z.lt (λ z, z + tol)%Z.
Proof. intros Ht. split; intros; try lia. Qed.
Lemma zsort_ok : sorts Z.lt zsort.
Proof.
  intros l. split; [apply merge_sort_Permutation|]. pose proof (StronglySorted_merge_sort Z.le l) as H. unfold zsort. clear - H. induction H as [|x l' H IH HF]; constructor; [done|].
  eapply Forall_impl; [done|]. cbn. intros. lia.
Qed.
Definition coord0 : list Z := concat ((λ q, [q; q; 0; q; q; 100]%Z) <$> [0; 1; 2; 10; 11; 12]%Z).
Definition zcorn0 : list Z := concat [[0; 5; 5; 9]; [0; 5; 6; 9]; [1; 5; 5; 9]; [0; 4; 4; 9]; [0; 5; 5; 9]; [0; 5; 5; 9]; [0; 5; 5; 9]; [0; 5; 5; 9]]%Z.
Definition act0 : list Z := [1; 1; 1; 0]%Z.
Example C37_case_sizes : input_sizes 2 1 2 coord0 zcorn0 act0 ∧ length (replicate 48 0%Z) = 8 * (2 * 1 * 2 + 2 * 1).
Proof. split; [split|]; vm_compute; repeat split; lia. Qed.
Example C37_case : ∃ u, finduniquepoints Z.lt (λ z, z + 1)%Z zsort (λ c _, (nth 0 c 0%Z, nth 1 c 0%Z)) 77%Z 2 1 2 coord0 zcorn0 act0 (replicate 48 0%Z) = Some u ∧
  u_num u = 16 ∧ take 24 (u_plist u) = [int_min; 0; 1; 1; 2; int_max; int_min; 3; 4; 4; 5; int_max; int_min; 3; 4; 4; 4; int_max; int_min; 6; 7; 7; 7; int_max]%Z.
Proof. eexists. split; [vm_compute; reflexivity|]. split; vm_compute; reflexivity. Qed.
Example C37_case_falling : falling Z.lt 2 2 zcorn0 act0 1 0 3.
Proof.
  intros k1 k2 z1 z2 H1 H2 _ _. unfold depth. destruct k1 as [|[|[|[|k1]]]], k2 as [|[|[|[|k2]]]]; try lia; cbn; intros; simplify_eq; lia.
Qed.
