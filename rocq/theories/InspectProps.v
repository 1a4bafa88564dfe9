(** Inspection of corner-point grids (C70). *)
From Coq Require Import Reals Lra Psatz.
From Verif Require Import Base LoopModel LoopProof TableModel UTableProof TofSpec TofProof MiscSpec InspectModel InspectSpec.
Local Open Scope R_scope.
Unset Default Proof Using.

Lemma val_at l i : (i < length l)%nat → l !! i = Some (val l i).
Proof. intros H. unfold val. by destruct (lookup_lt_is_Some_2 _ _ H) as [x ->]. Qed.

(** The indices of a cell are those it is numbered by. *)
Theorem C70_index (g : inspector) (i j k : nat) : (i < gi_nx g)%nat → (j < gi_ny g)%nat →
  idx_to_logical g (i + gi_nx g * (j + gi_ny g * k)) = Some (i, j, k).
Proof.
  intros Hi Hj. unfold idx_to_logical. set (nx := gi_nx g) in *. set (ny := gi_ny g) in *. rewrite decide_False by nia.
  set (h := (i + nx * j)%nat). assert (h < nx * ny)%nat as Hh by (unfold h; nia).
  replace (i + nx * (j + ny * k) + 1)%nat with (h + 1 + k * (nx * ny))%nat by (unfold h; nia).
  assert ((if decide (h + 1 + k * (nx * ny) - (h + 1 + k * (nx * ny)) / (nx * ny) * nx * ny = 0)%nat then (nx * ny)%nat else (h + 1 + k * (nx * ny) - (h + 1 + k * (nx * ny)) / (nx * ny) * nx * ny)%nat) = (h + 1)%nat) as ->.
  { rewrite Nat.div_add by nia. destruct (decide (h + 1 = nx * ny)%nat) as [E|E].
    - rewrite E, Nat.div_same by nia. rewrite decide_True by nia. done.
    - rewrite Nat.div_small by lia. rewrite decide_False by nia. nia. }
  cbv zeta.
  assert ((if decide (h + 1 - (h + 1) / nx * nx = 0)%nat then nx else (h + 1 - (h + 1) / nx * nx)%nat) = (i + 1)%nat) as ->.
  { replace (h + 1)%nat with (i + 1 + j * nx)%nat by (unfold h; nia). rewrite Nat.div_add by lia. destruct (decide (i + 1 = nx)%nat) as [E|E].
    - rewrite E, Nat.div_same by lia. rewrite decide_True by nia. done.
    - rewrite Nat.div_small by lia. rewrite decide_False by nia. nia. }
  replace (h + 1 - (i + 1))%nat with (0 + j * nx)%nat by (unfold h; nia). rewrite Nat.div_add, Nat.div_0_l by lia.
  replace (h + 1 + k * (nx * ny) - nx * (0 + j + 1 - 1) - 1)%nat with (i + k * (nx * ny))%nat by (unfold h; nia).
  rewrite Nat.div_add, (Nat.div_small i) by nia. f_equal. f_equal; [f_equal|]; lia.
Qed.
Print Assumptions C70_index.

Lemma corner_lt (g : inspector) i j k a b c : in_box g i j k → (a <= 1)%nat → (b <= 1)%nat → (c <= 1)%nat →
  ((2 * i + a) + 2 * gi_nx g * ((2 * j + b) + 2 * gi_ny g * (2 * k + c)) < 8 * (gi_nx g * gi_ny g * gi_nz g))%nat.
Proof.
  intros (Hi & Hj & Hk) Ha Hb Hc. set (nx := gi_nx g) in *. set (ny := gi_ny g) in *. set (nz := gi_nz g) in *.
  assert (2 * k + c + 1 <= 2 * nz)%nat as H1 by lia. assert (2 * j + b + 1 <= 2 * ny)%nat as H2 by lia. assert (2 * i + a + 1 <= 2 * nx)%nat as H3 by lia.
  assert ((2 * j + b) + 2 * ny * (2 * k + c) + 1 <= 2 * ny * (2 * nz))%nat as H4 by nia.
  set (q := ((2 * j + b) + 2 * ny * (2 * k + c))%nat) in *. replace (8 * (nx * ny * nz))%nat with (2 * nx * (2 * ny * (2 * nz)))%nat by lia. nia.
Qed.

(** The eight values are those of the corners: first index fastest, top first. *)
Theorem C70_corners (g : inspector) (i j k : nat) : in_box g i j k → sizes_ok g →
  cell_z g i j k = Some [corner_z g i j k 0 0 0; corner_z g i j k 1 0 0; corner_z g i j k 0 1 0; corner_z g i j k 1 1 0;
                         corner_z g i j k 0 0 1; corner_z g i j k 1 0 1; corner_z g i j k 0 1 1; corner_z g i j k 1 1 1].
Proof.
  intros Hb [_ Hz]. unfold cell_z. rewrite decide_True by done.
  assert (∀ d a b c, (a <= 1)%nat → (b <= 1)%nat → (c <= 1)%nat → d = (a + 2 * gi_nx g * b + 4 * gi_nx g * gi_ny g * c)%nat →
    gi_zcorn g !! (2 * (i * 1 + j * (2 * gi_nx g) + k * (4 * gi_nx g * gi_ny g)) + d)%nat = Some (corner_z g i j k a b c)) as H.
  { intros d a b c Ha Hb' Hc ->. pose proof (corner_lt g i j k a b c Hb Ha Hb' Hc) as Hlt. unfold corner_z. rewrite <- val_at by lia. f_equal. lia. }
  cbv zeta. apply mapM_Some_2. repeat (apply Forall2_cons_2; [apply H; lia|]). apply Forall2_nil_2.
Qed.
Print Assumptions C70_corners.

Lemma pillar_at (g : inspector) i j q p : (i <= gi_nx g)%nat → (j <= gi_ny g)%nat → sizes_ok g → (q < 6)%nat → p = (i + (gi_nx g + 1) * j)%nat →
  gi_coord g !! (6 * p + q)%nat = Some (val (gi_coord g) (6 * (i + (gi_nx g + 1) * j) + q)).
Proof. intros Hi Hj [Hs _] Hq ->. apply val_at. rewrite <- Hs. nia. Qed.

(** The volume: area of the base times mean height. *)
Theorem C70_volume (g : inspector) (i j k : nat) : in_box g i j k → sizes_ok g →
  cell_volume g i j k = Some (base_area g i j * (mean_z g i j k 1 - mean_z g i j k 0)).
Proof.
  intros Hb Hs. unfold cell_volume. rewrite (decide_True (P := in_box g i j k)) by done. rewrite (decide_True (P := sizes_ok g)) by done.
  pose proof Hb as (Hi & Hj & Hk). rewrite (C70_corners g i j k Hb Hs).
  assert (∀ p i' j', p = (i' + (gi_nx g + 1) * j')%nat → (i' <= gi_nx g)%nat → (j' <= gi_ny g)%nat → gi_coord g !! (6 * p)%nat = Some (pillar_x g i' j')) as HX.
  { intros p i' j' Hp Hi' Hj'. pose proof (pillar_at g i' j' 0 p Hi' Hj' Hs ltac:(lia) Hp) as H. rewrite !Nat.add_0_r in H. exact H. }
  assert (∀ p i' j', p = (i' + (gi_nx g + 1) * j')%nat → (i' <= gi_nx g)%nat → (j' <= gi_ny g)%nat → gi_coord g !! (6 * p + 1)%nat = Some (pillar_y g i' j')) as HY.
  { intros p i' j' Hp Hi' Hj'. exact (pillar_at g i' j' 1 p Hi' Hj' Hs ltac:(lia) Hp). }
  cbv zeta.
  erewrite (mapM_Some_2 (λ p, gi_coord g !! (6 * p)%nat) _ [pillar_x g i j; pillar_x g (i + 1) j; pillar_x g i (j + 1); pillar_x g (i + 1) (j + 1)]) by (repeat (apply Forall2_cons_2; [apply HX; lia|]); apply Forall2_nil_2). cbn [mbind option_bind].
  erewrite (mapM_Some_2 (λ p, gi_coord g !! (6 * p + 1)%nat) _ [pillar_y g i j; pillar_y g (i + 1) j; pillar_y g i (j + 1); pillar_y g (i + 1) (j + 1)]) by (repeat (apply Forall2_cons_2; [apply HY; lia|]); apply Forall2_nil_2). cbn [mbind option_bind].
  f_equal. unfold base_area, quad_area, turn, point, mean_z. cbn [fst snd]. lra.
Qed.
Print Assumptions C70_volume.

(** Layers without gaps: the volumes of a column of cells add up. *)
Theorem C70_column (g : inspector) (i j : nat) : (i < gi_nx g)%nat → (j < gi_ny g)%nat → (0 < gi_nz g)%nat → sizes_ok g →
  (∀ k a b, (k + 1 < gi_nz g)%nat → (a <= 1)%nat → (b <= 1)%nat → corner_z g i j k a b 1 = corner_z g i j (k + 1) a b 0) →
  rsum (λ k, default 0 (cell_volume g i j k)) (seq 0 (gi_nz g)) = base_area g i j * (mean_z g i j (gi_nz g - 1) 1 - mean_z g i j 0 0).
Proof.
  intros Hi Hj Hz Hs Hc.
  assert (∀ n, (n < gi_nz g)%nat → rsum (λ k, default 0 (cell_volume g i j k)) (seq 0 (n + 1)) = base_area g i j * (mean_z g i j n 1 - mean_z g i j 0 0)) as H.
  { induction n as [|n IH]; intros Hn.
    - cbn [seq Nat.add rsum]. rewrite C70_volume by (done || split; done || (split; [done|split; [done|lia]])). cbn. lra.
    - replace (S n + 1)%nat with ((n + 1) + 1)%nat by lia. rewrite (seq_app (n + 1) 1 0).
      assert (∀ l l' : list nat, rsum (λ k, default 0 (cell_volume g i j k)) (l ++ l') = rsum (λ k, default 0 (cell_volume g i j k)) l + rsum (λ k, default 0 (cell_volume g i j k)) l') as Happ.
      { induction l as [|x l IHl]; intros l'; cbn [app rsum]; [lra|]. rewrite IHl. lra. }
      rewrite Happ, IH by lia. cbn [seq rsum Nat.add]. replace (S n) with (n + 1)%nat by lia. rewrite C70_volume; [|split; [done|split; [done|lia]]|done].
      assert (mean_z g i j (n + 1) 0 = mean_z g i j n 1) as E by (unfold mean_z; rewrite !(Hc n) by lia; done). 
      rewrite E.
      match goal with |- context [default 0 (Some ?x)] => change (default 0 (Some x)) with x end.
      ring. }
  specialize (H (gi_nz g - 1)%nat ltac:(lia)). replace (gi_nz g - 1 + 1)%nat with (gi_nz g) in H by lia. exact H.
Qed.
Print Assumptions C70_column.

Lemma min_least l : l ≠ [] → ∃ m, min_elem l = Some m ∧ least m l.
Proof.
  destruct l as [|x l]; [done|]. intros _. cbn [min_elem]. eexists. split; [reflexivity|]. revert x. induction l as [|y l IH]; intros x; cbn [foldl].
  - split; [constructor|]. intros z ->%elem_of_list_singleton. lra.
  - destruct (IH (Rmin x y)) as [H1 H2]. split.
    + apply elem_of_cons in H1 as [H1|H1]; [|by do 2 right]. rewrite H1. unfold Rmin. destruct (Rle_dec x y); [left|right; left].
    + intros z Hz. assert (foldl Rmin (Rmin x y) l <= Rmin x y) as H3 by (apply H2; left).
      apply elem_of_cons in Hz as [->|[->|Hz]%elem_of_cons]; [pose proof (Rmin_l x y); lra|pose proof (Rmin_r x y); lra|]. apply H2. by right.
Qed.
Lemma max_greatest l : l ≠ [] → ∃ m, max_elem l = Some m ∧ greatest m l.
Proof.
  destruct l as [|x l]; [done|]. intros _. cbn [max_elem]. eexists. split; [reflexivity|]. revert x. induction l as [|y l IH]; intros x; cbn [foldl].
  - split; [constructor|]. intros z ->%elem_of_list_singleton. lra.
  - destruct (IH (Rmax x y)) as [H1 H2]. split.
    + apply elem_of_cons in H1 as [H1|H1]; [|by do 2 right]. rewrite H1. unfold Rmax. destruct (Rle_dec x y); [right; left|left].
    + intros z Hz. assert (Rmax x y <= foldl Rmax (Rmax x y) l) as H3 by (apply H2; left).
      apply elem_of_cons in Hz as [->|[->|Hz]%elem_of_cons]; [pose proof (Rmax_l x y); lra|pose proof (Rmax_r x y); lra|]. apply H2. by right.
Qed.

(** [st] bounds the numbers of [l] tightly (or still has its initial values). *)
Definition tight (M : R) (st : R * R) (l : list R) : Prop := (∀ v, v ∈ l → fst st <= v <= snd st) ∧ (fst st = M ∨ fst st ∈ l) ∧ (snd st = - M ∨ snd st ∈ l).
Lemma widen_tight M v st l : tight M st l → tight M (widen v st) (l ++ [v]).
Proof.
  destruct st as [lo hi]. intros (H1 & H2 & H3). unfold tight, widen in *. cbn [fst snd] in *.
  assert ((if Rlt_dec v lo then v else lo) <= lo ∧ (if Rlt_dec v lo then v else lo) <= v) as [L1 L2] by (destruct (Rlt_dec v lo); lra).
  assert (hi <= (if Rlt_dec hi v then v else hi) ∧ v <= (if Rlt_dec hi v then v else hi)) as [U1 U2] by (destruct (Rlt_dec hi v); lra).
  split; [|split].
  - intros x [Hx| ->%elem_of_list_singleton]%elem_of_app; [specialize (H1 x Hx)|]; lra.
  - destruct (Rlt_dec v lo); [right; apply elem_of_app; right; by left|]. destruct H2; [by left|right; apply elem_of_app; by left].
  - destruct (Rlt_dec hi v); [right; apply elem_of_app; right; by left|]. destruct H3; [by left|right; apply elem_of_app; by left].
Qed.
(** The coordinates [q] and [q + 3] of the first [n] pillars. *)
Definition ends (g : inspector) (q n : nat) : list R := flat_map (λ p, [val (gi_coord g) (6 * p + q); val (gi_coord g) (6 * p + q + 3)]) (seq 0 n).
Lemma ends_S g q n : ends g q (n + 1) = ends g q n ++ [val (gi_coord g) (6 * n + q)] ++ [val (gi_coord g) (6 * n + q + 3)].
Proof. unfold ends. rewrite (seq_app n 1 0), flat_map_app. done. Qed.

(** The limits are least and greatest coordinates of the ends of pillars and of
    corners. *)
Theorem C70_limits (M : R) (g : inspector) : gi_spec g = true → sizes_ok g → gi_zcorn g ≠ [] → (∀ x, x ∈ gi_coord g → - M <= x <= M) →
  ∃ xmin xmax ymin ymax zmin zmax, grid_limits M g = Some (xmin, xmax, (ymin, ymax), (zmin, zmax)) ∧
    let n := ((gi_nx g + 1) * (gi_ny g + 1))%nat in
    least xmin (ends g 0 n) ∧ greatest xmax (ends g 0 n) ∧ least ymin (ends g 1 n) ∧ greatest ymax (ends g 1 n) ∧ least zmin (gi_zcorn g) ∧ greatest zmax (gi_zcorn g).
Proof.
  intros Hspec [Hs _] Hz HM. unfold grid_limits. rewrite Hspec.
  assert (∀ p q, (p < (gi_nx g + 1) * (gi_ny g + 1))%nat → (q < 6)%nat → gi_coord g !! (p * 6 + q)%nat = Some (val (gi_coord g) (6 * p + q))) as Hat.
  { intros p q Hp Hq. rewrite <- val_at by lia. f_equal. lia. }
  edestruct (for_loop_inv (λ n (st : (R * R) * (R * R)), tight M (fst st) (ends g 0 n) ∧ tight M (snd st) (ends g 1 n)) ((gi_nx g + 1) * (gi_ny g + 1)) 0) as ([[xmin xmax] [ymin ymax]] & E & Hx & Hy).
  3:{ rewrite E. cbn [mbind option_bind]. destruct (min_least _ Hz) as (zmin & -> & Hzm). destruct (max_greatest _ Hz) as (zmax & -> & HzM). cbn [mbind option_bind].
      exists xmin, xmax, ymin, ymax, zmin, zmax. split; [done|]. cbv zeta. cbn [fst snd Nat.add] in Hx, Hy.
      set (n := ((gi_nx g + 1) * (gi_ny g + 1))%nat) in *.
      assert (∀ q lo hi, (q < 3)%nat → tight M (lo, hi) (ends g q n) → least lo (ends g q n) ∧ greatest hi (ends g q n)) as H.
      { intros q lo hi Hq (T1 & T2 & T3). cbn [fst snd] in *.
        assert (∃ v, v ∈ ends g q n) as [v Hv]. { exists (val (gi_coord g) (6 * 0 + q)). unfold ends. destruct n as [|n'] eqn:En; [unfold n in En; nia|]. cbn [seq flat_map]. left. }
        assert (- M <= v <= M) as Hvm.
        { unfold ends in Hv. apply elem_of_list_In, in_flat_map in Hv as (p & Hp & Hv). apply in_seq in Hp. cbn [In] in Hv.
          assert (∀ t, (t < 6)%nat → - M <= val (gi_coord g) (6 * p + t) <= M) as Hb'. { intros t Ht. apply HM. apply (elem_of_list_lookup_2 _ (p * 6 + t)). apply Hat; lia. }
          destruct Hv as [<-|[<-|[]]]; [apply Hb'; lia|]. replace (6 * p + q + 3)%nat with (6 * p + (q + 3))%nat by lia. apply Hb'. lia. }
        specialize (T1 v Hv) as Tv. split; split.
        - destruct T2 as [->|]; [|done]. assert (M = v) as -> by lra. done.
        - intros x Hx'. specialize (T1 x Hx'). lra.
        - destruct T3 as [->|]; [|done]. assert (- M = v) as -> by lra. done.
        - intros x Hx'. specialize (T1 x Hx'). lra. }
      destruct (H 0%nat xmin xmax ltac:(lia) Hx) as [? ?]. destruct (H 1%nat ymin ymax ltac:(lia) Hy) as [? ?]. done. }
  - cbn [fst snd ends seq flat_map]. assert (tight M (M, - M) []) as H; [|by split]. split; [intros v Hv; by apply elem_of_nil in Hv|]. split; by left.
  - intros n [xs ys] Hn [Hx Hy]. cbn [fst snd] in *.
    rewrite !Hat by lia. cbn [mbind option_bind]. eexists. split; [reflexivity|]. cbn [fst snd]. rewrite !ends_S, !app_assoc.
    replace (6 * n + 0 + 3)%nat with (6 * n + 3)%nat by lia. replace (6 * n + 1 + 3)%nat with (6 * n + 4)%nat by lia. split; apply widen_tight.
    + by apply widen_tight.
    + by apply widen_tight.
Qed.
Print Assumptions C70_limits.

(** The rises of the edges that count are all equal to [A]. *)
Lemma rise_eq len lim a b A : len ≠ 0 → b - a = A * len →
  (a ≠ lim ∧ b ≠ lim ∧ rise len lim a b = Some (A, 1%nat)) ∨ (¬ (a ≠ lim ∧ b ≠ lim) ∧ rise len lim a b = Some (0, 0%nat)).
Proof.
  intros Hl E. unfold rise. rewrite rdiv_Some by done. cbn [mbind option_bind].
  destruct (Req_EM_T b lim) as [Hb|Hb]; [right; split; [tauto|done]|]. destruct (Req_EM_T a lim) as [Ha|Ha]; [right; split; [tauto|done]|].
  left. split; [done|]. split; [done|]. do 2 f_equal. rewrite E. field. done.
Qed.
Definition counts (A : R) (e : R * nat) : Prop := e = (A, 1%nat) ∨ e = (0, 0%nat).
Lemma mean_eq A e0 e1 e2 e3 : counts A e0 → counts A e1 → counts A e2 → counts A e3 →
  (snd e0 + snd e1 + snd e2 + snd e3 ≠ 0)%nat → mean_rise [e0; e1; e2; e3] = Some A.
Proof.
  intros [->| ->] [->| ->] [->| ->] [->| ->] H; cbn [snd] in H; cbn [mean_rise]; try lia; rewrite rdiv_Some by (cbn [Nat.add INR]; lra); f_equal; cbn [Nat.add INR]; field.
Qed.
Lemma mean_none e0 e1 e2 e3 : (snd e0 + snd e1 + snd e2 + snd e3 = 0)%nat → mean_rise [e0; e1; e2; e3] = None.
Proof. destruct e0, e1, e2, e3. cbn [snd mean_rise]. intros ->. unfold rdiv. cbn [INR]. destruct (Req_EM_T 0 0); [done|lra]. Qed.
Lemma edges_mean len A l0 l1 l2 l3 a0 a1 a2 a3 b0 b1 b2 b3 : len ≠ 0 → b0 - a0 = A * len → b1 - a1 = A * len → b2 - a2 = A * len → b3 - a3 = A * len →
  let F := (a0 ≠ l0 ∧ b0 ≠ l0) ∨ (a1 ≠ l1 ∧ b1 ≠ l1) ∨ (a2 ≠ l2 ∧ b2 ≠ l2) ∨ (a3 ≠ l3 ∧ b3 ≠ l3) in
  ∃ l, mapM (λ e : R * (R * R), rise len (fst e) (fst (snd e)) (snd (snd e))) [(l0, (a0, b0)); (l1, (a1, b1)); (l2, (a2, b2)); (l3, (a3, b3))] = Some l ∧
    ((F ∧ mean_rise l = Some A) ∨ (¬ F ∧ mean_rise l = None)).
Proof.
  intros Hl E0 E1 E2 E3 F.
  assert (∀ lim a b, b - a = A * len → ∃ e, rise len lim a b = Some e ∧ counts A e ∧ ((a ≠ lim ∧ b ≠ lim ∧ snd e = 1%nat) ∨ (¬ (a ≠ lim ∧ b ≠ lim) ∧ snd e = 0%nat))) as H.
  { intros lim a b E. destruct (rise_eq len lim a b A Hl E) as [(H1 & H2 & H3)|(H1 & H3)]; eexists; (split; [exact H3|]); unfold counts; cbn [snd]; tauto. }
  destruct (H l0 a0 b0 E0) as (e0 & R0 & C0 & D0). destruct (H l1 a1 b1 E1) as (e1 & R1 & C1 & D1).
  destruct (H l2 a2 b2 E2) as (e2 & R2 & C2 & D2). destruct (H l3 a3 b3 E3) as (e3 & R3 & C3 & D3).
  exists [e0; e1; e2; e3]. split.
  - apply mapM_Some_2. repeat (apply Forall2_cons_2; [assumption|]). apply Forall2_nil_2.
  - destruct (decide (snd e0 + snd e1 + snd e2 + snd e3 = 0)%nat) as [Z|Z]; [right|left].
    + split; [|by apply mean_none]. unfold F. destruct D0 as [?|[D0 _]]; [lia|]. destruct D1 as [?|[D1 _]]; [lia|]. destruct D2 as [?|[D2 _]]; [lia|]. destruct D3 as [?|[D3 _]]; [lia|].
      intros [?|[?|[?|?]]]; auto.
    + split; [|by apply mean_eq]. unfold F. destruct D0 as [(?&?&_)|[_ D0]]; [by left|]. destruct D1 as [(?&?&_)|[_ D1]]; [by right; left|]. destruct D2 as [(?&?&_)|[_ D2]]; [by right; right; left|]. destruct D3 as [(?&?&_)|[_ D3]]; [by right; right; right|]. lia.
Qed.
Lemma free_top g zmin zmax i j k a b : free_corner g zmin zmax i j k a b 0 ↔ corner_z g i j k a b 0 ≠ zmin.
Proof. unfold free_corner. rewrite decide_True by done. done. Qed.
Lemma free_bottom g zmin zmax i j k a b : free_corner g zmin zmax i j k a b 1 ↔ corner_z g i j k a b 1 ≠ zmax.
Proof. unfold free_corner. rewrite decide_False by done. done. Qed.
Lemma free_x_edges g zmin zmax i j k : free_x g zmin zmax i j k ↔
  (corner_z g i j k 0 0 0 ≠ zmin ∧ corner_z g i j k 1 0 0 ≠ zmin) ∨ (corner_z g i j k 0 1 0 ≠ zmin ∧ corner_z g i j k 1 1 0 ≠ zmin) ∨
  (corner_z g i j k 0 0 1 ≠ zmax ∧ corner_z g i j k 1 0 1 ≠ zmax) ∨ (corner_z g i j k 0 1 1 ≠ zmax ∧ corner_z g i j k 1 1 1 ≠ zmax).
Proof.
  rewrite <- !(free_top g zmin zmax), <- !(free_bottom g zmin zmax). unfold free_x. split.
  - intros (b & c & Hb & Hc & F1 & F2). destruct b as [|[|b]]; [| |lia]; (destruct c as [|[|c]]; [| |lia]); [by left|by right; right; left|by right; left|by right; right; right].
  - intros [[F1 F2]|[[F1 F2]|[[F1 F2]|[F1 F2]]]]; [exists 0%nat, 0%nat|exists 1%nat, 0%nat|exists 0%nat, 1%nat|exists 1%nat, 1%nat]; (split; [lia|split; [lia|split; assumption]]).
Qed.
Lemma free_y_edges g zmin zmax i j k : free_y g zmin zmax i j k ↔
  (corner_z g i j k 0 0 0 ≠ zmin ∧ corner_z g i j k 0 1 0 ≠ zmin) ∨ (corner_z g i j k 1 0 0 ≠ zmin ∧ corner_z g i j k 1 1 0 ≠ zmin) ∨
  (corner_z g i j k 0 0 1 ≠ zmax ∧ corner_z g i j k 0 1 1 ≠ zmax) ∨ (corner_z g i j k 1 0 1 ≠ zmax ∧ corner_z g i j k 1 1 1 ≠ zmax).
Proof.
  rewrite <- !(free_top g zmin zmax), <- !(free_bottom g zmin zmax). unfold free_y. split.
  - intros (b & c & Hb & Hc & F1 & F2). destruct b as [|[|b]]; [| |lia]; (destruct c as [|[|c]]; [| |lia]); [by left|by right; right; left|by right; left|by right; right; right].
  - intros [[F1 F2]|[[F1 F2]|[[F1 F2]|[F1 F2]]]]; [exists 0%nat, 0%nat|exists 1%nat, 0%nat|exists 0%nat, 1%nat|exists 1%nat, 1%nat]; (split; [lia|split; [lia|split; assumption]]).
Qed.
