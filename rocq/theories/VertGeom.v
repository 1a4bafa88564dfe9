(** The plane geometry of two strips. *)
From Coq Require Import Reals Lra Psatz.
From Verif Require Import Base UniqModel PrepModel HorizSpec VertModel VertSpec.
Unset Default Proof Using.
Local Open Scope R_scope.

Lemma small_pos d e : 0 < d → ∃ t0, 0 < t0 < 1 ∧ ∀ t, 0 < t <= t0 → 0 < (1 - t) * d + t * e.
Proof.
  intros Hd. exists (d / (2 * (d + Rabs e))). pose proof (Rabs_pos e). pose proof (Rle_abs (- e)) as He. rewrite Rabs_Ropp in He.
  assert (Hq : d / (2 * (d + Rabs e)) * (2 * (d + Rabs e)) = d) by (field; lra). set (q := d / (2 * (d + Rabs e))) in *.
  assert (0 < q). { unfold q. apply Rdiv_lt_0_compat; lra. }
  split; [split; [done|]; nra|]. intros t [H1 H2]. nra.
Qed.

Section lines.
Variables (z1 z2 : Z → R).
Hypothesis Hz1 : ∀ p q, (p < q)%Z → z1 p < z1 q.
Hypothesis Hz2 : ∀ p q, (p < q)%Z → z2 p < z2 q.
Lemma z1_lt p q : z1 p < z1 q ↔ (p < q)%Z.
Proof using Hz1. split; [|apply Hz1]. intros H. destruct (Z.lt_trichotomy p q) as [?|[->|Hq]]; [done|lra|]. apply Hz1 in Hq. lra. Qed.
Lemma z2_lt p q : z2 p < z2 q ↔ (p < q)%Z.
Proof using Hz2. split; [|apply Hz2]. intros H. destruct (Z.lt_trichotomy p q) as [?|[->|Hq]]; [done|lra|]. apply Hz2 in Hq. lra. Qed.
Lemma z1_le p q : z1 p <= z1 q ↔ (p ≤ q)%Z.
Proof using Hz1. rewrite <- Z.nlt_ge, <- z1_lt. lra. Qed.
Lemma z2_le p q : z2 p <= z2 q ↔ (p ≤ q)%Z.
Proof using Hz2. rewrite <- Z.nlt_ge, <- z2_lt. lra. Qed.
Lemma crossing_iff p1 p2 q1 q2 : crossing z1 z2 p1 p2 q1 q2 ↔ line_intersection p1 p2 q1 q2 = true.
Proof using Hz1 Hz2.
  unfold crossing, line_intersection. rewrite bool_decide_eq_true, <- (z1_lt q1 p1), <- (z1_lt p1 q1), <- (z2_lt p2 q2), <- (z2_lt q2 p2). split.
  - intros H. destruct (Rlt_dec (z1 q1) (z1 p1)); [left; split; [lra|nra]|right; split; [|nra]]. destruct (Rlt_dec (z1 p1) (z1 q1)); [lra|]. exfalso. assert (z1 p1 = z1 q1) as E by lra. rewrite E in H. lra.
  - intros [[? ?]|[? ?]]; nra.
Qed.
(** Crossing lines have one common point. *)
Lemma crossing_at p1 p2 q1 q2 : crossing z1 z2 p1 p2 q1 q2 → ∃ t, 0 < t < 1 ∧ line z1 z2 p1 p2 t = line z1 z2 q1 q2 t.
Proof.
  unfold crossing, line. intros H. set (d := z1 p1 - z1 q1) in *. set (e := z2 p2 - z2 q2) in *. assert (Hde : d - e ≠ 0) by (intros ?; assert (e = d) as E by lra; rewrite E in H; nra).
  exists (d / (d - e)). assert (Hq : d / (d - e) * (d - e) = d) by (field; done). set (q := d / (d - e)) in *. split.
  - destruct (Rlt_dec 0 (d - e)); split; nra.
  - assert ((1 - q) * d + q * e = 0) by lra. unfold d, e in *. lra.
Qed.
Lemma crossing_unique p1 p2 q1 q2 t t' : crossing z1 z2 p1 p2 q1 q2 → line z1 z2 p1 p2 t = line z1 z2 q1 q2 t → line z1 z2 p1 p2 t' = line z1 z2 q1 q2 t' → t = t'.
Proof. unfold crossing, line. intros H E E'. set (d := z1 p1 - z1 q1) in *. set (e := z2 p2 - z2 q2) in *. assert ((1 - t) * d + t * e = 0) by (unfold d, e; lra). assert ((1 - t') * d + t' * e = 0) by (unfold d, e; lra). assert (d - e ≠ 0) by nra. nra. Qed.
End lines.

(** ** Two strips *)
Section strips.
Variables (z1 z2 : Z → R).
Hypothesis Hz1 : ∀ p q, (p < q)%Z → z1 p < z1 q.
Hypothesis Hz2 : ∀ p q, (p < q)%Z → z2 p < z2 q.
Variables (C : columns) (i j : nat).
Hypothesis MA : (A1 C i ≤ A1 C (i + 1)%nat ∧ A2 C i ≤ A2 C (i + 1)%nat)%Z.
Hypothesis MB : (B1 C j ≤ B1 C (j + 1)%nat ∧ B2 C j ≤ B2 C (j + 1)%nat)%Z.
Notation u := (z1 (A1 C i)). Notation u' := (z2 (A2 C i)).
Notation v := (z1 (A1 C (i + 1)%nat)). Notation v' := (z2 (A2 C (i + 1)%nat)).
Notation w := (z1 (B1 C j)). Notation w' := (z2 (B2 C j)).
Notation x := (z1 (B1 C (j + 1)%nat)). Notation x' := (z2 (B2 C (j + 1)%nat)).
Notation FI := (faceintersection (A1 C i, A1 C (i + 1)%nat) (A2 C i, A2 C (i + 1)%nat) (B1 C j, B1 C (j + 1)%nat) (B2 C j, B2 C (j + 1)%nat)).
Definition thickA : Prop := (A1 C i ≠ A1 C (i + 1)%nat ∨ A2 C i ≠ A2 C (i + 1)%nat)%Z.
Definition thickB : Prop := (B1 C j ≠ B1 C (j + 1)%nat ∨ B2 C j ≠ B2 C (j + 1)%nat)%Z.

Lemma MAr : u <= v ∧ u' <= v'. Proof using Hz1 Hz2 MA. split; [by apply z1_le; [|apply MA]|by apply z2_le; [|apply MA]]. Qed.
Lemma MBr : w <= x ∧ w' <= x'. Proof using Hz1 Hz2 MB. split; [by apply z1_le; [|apply MB]|by apply z2_le; [|apply MB]]. Qed.
Lemma thickA_r : thickA ↔ u < v ∨ u' < v'.
Proof using Hz1 Hz2 MA. unfold thickA. rewrite (z1_lt z1 Hz1), (z2_lt z2 Hz2). lia. Qed.
Lemma thickB_r : thickB ↔ w < x ∨ w' < x'.
Proof using Hz1 Hz2 MB. unfold thickB. rewrite (z1_lt z1 Hz1), (z2_lt z2 Hz2). lia. Qed.
Lemma FI_r : FI = true ↔ (u < v ∧ u < x ∧ w < v ∧ w < x) ∨ (u' < v' ∧ u' < x' ∧ w' < v' ∧ w' < x') ∨ crossing z1 z2 (A1 C i) (A2 C i) (B1 C j) (B2 C j) ∨ crossing z1 z2 (A1 C (i + 1)%nat) (A2 C (i + 1)%nat) (B1 C (j + 1)%nat) (B2 C (j + 1)%nat).
Proof using Hz1 Hz2.
  unfold faceintersection. cbn [fst snd]. rewrite !orb_true_iff, !bool_decide_eq_true, !(crossing_iff z1 z2 Hz1 Hz2), !(z1_lt z1 Hz1), !(z2_lt z2 Hz2). split.
  - intros [[[?|?]|?]|?]; [left; lia|right; left; lia|do 2 right; by left|by do 3 right].
  - intros [?|[?|[?|?]]]; [do 3 left; lia|do 2 left; right; lia|left; by right|by right].
Qed.

Lemma FI_overlap : thickA → thickB → FI = true → overlap z1 z2 C i j.
Proof using Hz1 Hz2 MA MB.
  intros Ta%thickA_r Tb%thickB_r H%FI_r. destruct MAr as [Ma Ma'], MBr as [Mb Mb'].
  assert (G : ∀ t, 0 < t < 1 → lineA z1 z2 C i t < lineA z1 z2 C (i + 1)%nat t → lineA z1 z2 C i t < lineB z1 z2 C (j + 1)%nat t → lineB z1 z2 C j t < lineA z1 z2 C (i + 1)%nat t → lineB z1 z2 C j t < lineB z1 z2 C (j + 1)%nat t → overlap z1 z2 C i j).
  { intros t Ht H1 H2 H3 H4. exists t, ((Rmax (lineA z1 z2 C i t) (lineB z1 z2 C j t) + Rmin (lineA z1 z2 C (i + 1)%nat t) (lineB z1 z2 C (j + 1)%nat t)) / 2).
    unfold Rmax, Rmin. destruct (Rle_dec _ _), (Rle_dec _ _); split_and!; lra. }
  unfold lineA, lineB, line in G. destruct H as [(H1 & H2 & H3 & H4)|[(H1 & H2 & H3 & H4)|[H|H]]].
  - destruct (small_pos (v - u) (v' - u') ltac:(lra)) as (t1 & T1 & P1), (small_pos (x - u) (x' - u') ltac:(lra)) as (t2 & T2 & P2), (small_pos (v - w) (v' - w') ltac:(lra)) as (t3 & T3 & P3), (small_pos (x - w) (x' - w') ltac:(lra)) as (t4 & T4 & P4).
    set (t := Rmin (Rmin t1 t2) (Rmin t3 t4)). assert (Ht : 0 < t ∧ t <= t1 ∧ t <= t2 ∧ t <= t3 ∧ t <= t4) by (unfold t, Rmin; repeat destruct (Rle_dec _ _); lra).
    specialize (P1 t ltac:(lra)). specialize (P2 t ltac:(lra)). specialize (P3 t ltac:(lra)). specialize (P4 t ltac:(lra)). apply (G t); lra.
  - destruct (small_pos (v' - u') (v - u) ltac:(lra)) as (t1 & T1 & P1), (small_pos (x' - u') (x - u) ltac:(lra)) as (t2 & T2 & P2), (small_pos (v' - w') (v - w) ltac:(lra)) as (t3 & T3 & P3), (small_pos (x' - w') (x - w) ltac:(lra)) as (t4 & T4 & P4).
    set (t := Rmin (Rmin t1 t2) (Rmin t3 t4)). assert (Ht : 0 < t ∧ t <= t1 ∧ t <= t2 ∧ t <= t3 ∧ t <= t4) by (unfold t, Rmin; repeat destruct (Rle_dec _ _); lra).
    specialize (P1 t ltac:(lra)). specialize (P2 t ltac:(lra)). specialize (P3 t ltac:(lra)). specialize (P4 t ltac:(lra)). apply (G (1 - t)); lra.
  - apply crossing_at in H as (t & Ht & E). unfold line in E. assert (P1 : 0 < (1 - t) * (v - u) + t * (v' - u')) by (destruct Ta; nra). assert (P2 : 0 < (1 - t) * (x - w) + t * (x' - w')) by (destruct Tb; nra). apply (G t); lra.
  - apply crossing_at in H as (t & Ht & E). unfold line in E. assert (P1 : 0 < (1 - t) * (v - u) + t * (v' - u')) by (destruct Ta; nra). assert (P2 : 0 < (1 - t) * (x - w) + t * (x' - w')) by (destruct Tb; nra). apply (G t); lra.
Qed.
Lemma overlap_thick : overlap z1 z2 C i j → thickA ∧ thickB.
Proof using Hz1 Hz2 MA MB.
  intros (t & z & Ht & H1 & H2 & H3 & H4). rewrite thickA_r, thickB_r. unfold lineA, lineB, line in *. destruct MAr, MBr. split.
  - destruct (Rlt_dec u v); [by left|right]. nra.
  - destruct (Rlt_dec w x); [by left|right]. nra.
Qed.
Lemma overlap_FI : overlap z1 z2 C i j → FI = true.
Proof using Hz1 Hz2 MA MB.
  intros (t & z & Ht & H1 & H2 & H3 & H4). apply FI_r. unfold lineA, lineB, line, crossing in *. destruct MAr, MBr.
  destruct (Rlt_dec ((u - w) * (u' - w')) 0) as [?|Hn1]; [right; right; by left|]. destruct (Rlt_dec ((v - x) * (v' - x')) 0) as [?|Hn2]; [by do 3 right|].
  assert (D1 : (u <= w ∧ u' <= w') ∨ (w <= u ∧ w' <= u')). { destruct (Rle_dec u w); [|right; split; [lra|nra]]. destruct (Rle_dec u' w'); [left; lra|]. right. split; [|lra]. nra. }
  assert (D2 : (v <= x ∧ v' <= x') ∨ (x <= v ∧ x' <= v')). { destruct (Rle_dec v x); [|right; split; [lra|nra]]. destruct (Rle_dec v' x'); [left; lra|]. right. split; [|lra]. nra. }
  destruct D1 as [[? ?]|[? ?]], D2 as [[? ?]|[? ?]].
  - destruct (Rlt_dec w v); [left; lra|]. right. left. assert (w' < v') by nra. lra.
  - destruct (Rlt_dec w x); [left; lra|]. right. left. assert (w' < x') by nra. lra.
  - destruct (Rlt_dec u v); [left; lra|]. right. left. assert (u' < v') by nra. lra.
  - destruct (Rlt_dec u x); [left; lra|]. right. left. assert (u' < x') by nra. lra.
Qed.
Lemma FI_iff : overlap z1 z2 C i j ↔ thickA ∧ thickB ∧ FI = true.
Proof using Hz1 Hz2 MA MB. split; [intros H; destruct (overlap_thick H); split_and!; try done; by apply overlap_FI|]. intros (? & ? & ?). by apply FI_overlap. Qed.

(** *** The common part *)
Notation la := (lineA z1 z2 C i). Notation la' := (lineA z1 z2 C (i + 1)%nat).
Notation lb := (lineB z1 z2 C j). Notation lb' := (lineB z1 z2 C (j + 1)%nat).
Definition U (t : R) : R := Rmax (la t) (lb t).
Definition L (t : R) : R := Rmin (la' t) (lb' t).
Definition is_at (s : vertex) (t z : R) : Prop := ∀ t' z', at_vertex z1 z2 s t' z' ↔ t' = t ∧ z' = z.
Lemma U_cases t : (U t = la t ∧ lb t <= la t) ∨ (U t = lb t ∧ la t <= lb t).
Proof. unfold U, Rmax. destruct (Rle_dec _ _); [right|left]; lra. Qed.
Lemma L_cases t : (L t = la' t ∧ la' t <= lb' t) ∨ (L t = lb' t ∧ lb' t <= la' t).
Proof. unfold L, Rmin. destruct (Rle_dec _ _); [left|right]; lra. Qed.
Lemma common_UL t z : common z1 z2 C i j t z ↔ 0 <= t <= 1 ∧ U t <= z ∧ z <= L t.
Proof. unfold common. destruct (U_cases t), (L_cases t); split; intros; split_and!; lra. Qed.

Lemma hull_eq vs t z t' z' : hull z1 z2 vs t z → t = t' → z = z' → hull z1 z2 vs t' z'.
Proof. by intros ? <- <-. Qed.
Lemma seg_hull vs a b t f0 f1 : (∀ s, s = a ∨ s = b → hull z1 z2 vs s ((1 - s) * f0 + s * f1)) → a <= t <= b → hull z1 z2 vs t ((1 - t) * f0 + t * f1).
Proof.
  intros H Ht. destruct (Req_dec a b) as [->|Hne]; [replace t with b by lra; apply H; by left|].
  assert (Hl : (t - a) / (b - a) * (b - a) = t - a) by (field; lra). set (l := (t - a) / (b - a)) in *.
  assert (Et : t = (1 - l) * a + l * b) by lra.
  eapply hull_eq; [apply (hull_between z1 z2 vs a ((1 - a) * f0 + a * f1) b ((1 - b) * f0 + b * f1) l)| |]; [apply H; by left|apply H; by right| |lra|].
  - split; nra.
  - clearbody l. rewrite Et. ring.
Qed.
(** Along a function that is one line where [(1 - s) d + s e] is positive and
    another one where it is negative, with a corner in between. *)
Lemma kink_hull vs (F : R → R) d e f0 f1 g0 g1 a b t :
  (∀ s, 0 <= s <= 1 → 0 <= (1 - s) * d + s * e → F s = (1 - s) * f0 + s * f1) → (∀ s, 0 <= s <= 1 → (1 - s) * d + s * e <= 0 → F s = (1 - s) * g0 + s * g1) →
  0 <= a → b <= 1 → hull z1 z2 vs a (F a) → hull z1 z2 vs b (F b) →
  (∀ s, 0 < s < 1 → d * e < 0 → (1 - s) * d + s * e = 0 → hull z1 z2 vs s (F s)) → a <= t <= b → hull z1 z2 vs t (F t).
Proof.
  intros Hp Hq Ha Hb H1 H2 Hk Ht.
  assert (Gp : ∀ a b, hull z1 z2 vs a (F a) → hull z1 z2 vs b (F b) → 0 <= a → b <= 1 → (∀ s, a <= s <= b → 0 <= (1 - s) * d + s * e) → a <= t <= b → hull z1 z2 vs t (F t)).
  { intros a' b' Ha' Hb' ? ? Hs Ht'. rewrite (Hp t) by (try apply Hs; lra). apply (seg_hull vs a' b'); [|done]. intros s [-> | ->]; rewrite <- Hp by (try apply Hs; lra); done. }
  assert (Gq : ∀ a b, hull z1 z2 vs a (F a) → hull z1 z2 vs b (F b) → 0 <= a → b <= 1 → (∀ s, a <= s <= b → (1 - s) * d + s * e <= 0) → a <= t <= b → hull z1 z2 vs t (F t)).
  { intros a' b' Ha' Hb' ? ? Hs Ht'. rewrite (Hq t) by (try apply Hs; lra). apply (seg_hull vs a' b'); [|done]. intros s [-> | ->]; rewrite <- Hq by (try apply Hs; lra); done. }
  destruct (Rlt_dec (d * e) 0) as [Hc|Hc].
  - assert (Hde : d - e ≠ 0) by (intros ?; assert (e = d) as E by lra; rewrite E in Hc; nra). assert (Hq0 : d / (d - e) * (d - e) = d) by (field; done). set (t0 := d / (d - e)) in *.
    assert (Ht0 : 0 < t0 < 1) by (destruct (Rlt_dec 0 (d - e)); split; nra). assert (E : (1 - t0) * d + t0 * e = 0) by lra. specialize (Hk t0 Ht0 Hc E). clearbody t0.
    destruct (Rlt_dec 0 d) as [Hd|Hd].
    + assert (He : e < 0) by nra. destruct (Rle_dec t t0).
      * destruct (Rle_dec t0 b); [apply (Gp a t0)|apply (Gp a b)]; try done; try lra; intros s Hs; nra.
      * destruct (Rle_dec a t0); [apply (Gq t0 b)|apply (Gq a b)]; try done; try lra; intros s Hs; nra.
    + assert (He : 0 < e) by nra. assert (d < 0) by nra. destruct (Rle_dec t t0).
      * destruct (Rle_dec t0 b); [apply (Gq a t0)|apply (Gq a b)]; try done; try lra; intros s Hs; nra.
      * destruct (Rle_dec a t0); [apply (Gp t0 b)|apply (Gp a b)]; try done; try lra; intros s Hs; nra.
  - destruct (Rle_dec 0 d) as [Hd|Hd], (Rle_dec 0 e) as [He|He].
    + apply (Gp a b); try done. intros s Hs. nra.
    + apply (Gq a b); try done. intros s Hs. assert (d = 0) by nra. nra.
    + apply (Gq a b); try done. intros s Hs. assert (e = 0) by nra. nra.
    + apply (Gq a b); try done. intros s Hs. nra.
Qed.
Lemma upper_hull vs a b t : 0 <= a → b <= 1 → hull z1 z2 vs a (U a) → hull z1 z2 vs b (U b) →
  (∀ s, 0 < s < 1 → crossing z1 z2 (A1 C i) (A2 C i) (B1 C j) (B2 C j) → la s = lb s → hull z1 z2 vs s (U s)) → a <= t <= b → hull z1 z2 vs t (U t).
Proof.
  intros Ha Hb H1 H2 Hk Ht. apply (kink_hull vs U (u - w) (u' - w') u u' w w' a b t); try done.
  - intros s Hs Hd. destruct (U_cases s) as [[-> ?]|[-> ?]]; unfold lineA, lineB, line in *; lra.
  - intros s Hs Hd. destruct (U_cases s) as [[-> ?]|[-> ?]]; unfold lineA, lineB, line in *; lra.
  - intros s Hs Hc E. apply Hk; [done|done|]. unfold lineA, lineB, line. lra.
Qed.
Lemma lower_hull vs a b t : 0 <= a → b <= 1 → hull z1 z2 vs a (L a) → hull z1 z2 vs b (L b) →
  (∀ s, 0 < s < 1 → crossing z1 z2 (A1 C (i + 1)%nat) (A2 C (i + 1)%nat) (B1 C (j + 1)%nat) (B2 C (j + 1)%nat) → la' s = lb' s → hull z1 z2 vs s (L s)) → a <= t <= b → hull z1 z2 vs t (L t).
Proof.
  intros Ha Hb H1 H2 Hk Ht. apply (kink_hull vs L (v - x) (v' - x') x x' v v' a b t); try done.
  - intros s Hs Hd. destruct (L_cases s) as [[-> ?]|[-> ?]]; unfold lineA, lineB, line in *; lra.
  - intros s Hs Hd. destruct (L_cases s) as [[-> ?]|[-> ?]]; unfold lineA, lineB, line in *; lra.
  - intros s Hs Hc E. apply Hk; [done|done|]. unfold lineA, lineB, line. lra.
Qed.

(** *** The slots of the polygon *)
Definition present (l : list (option vertex)) : list vertex := omap (λ o, o) l.
Definition s7 : option vertex :=
  if decide (B1 C (j + 1)%nat < A1 C i)%Z then Some (VX (A1 C i) (A2 C i) (B1 C (j + 1)%nat) (B2 C (j + 1)%nat))
  else if decide (A1 C (i + 1)%nat < B1 C j)%Z then Some (VX (A1 C (i + 1)%nat) (A2 C (i + 1)%nat) (B1 C j) (B2 C j)) else None.
Definition s3 : option vertex :=
  if decide (B2 C (j + 1)%nat < A2 C i)%Z then Some (VX (A1 C i) (A2 C i) (B1 C (j + 1)%nat) (B2 C (j + 1)%nat))
  else if decide (A2 C (i + 1)%nat < B2 C j)%Z then Some (VX (A1 C (i + 1)%nat) (A2 C (i + 1)%nat) (B1 C j) (B2 C j)) else None.
Notation hi1 := (Z.max (A1 C i) (B1 C j)). Notation lo1 := (Z.min (A1 C (i + 1)%nat) (B1 C (j + 1)%nat)).
Notation hi2 := (Z.max (A2 C i) (B2 C j)). Notation lo2 := (Z.min (A2 C (i + 1)%nat) (B2 C (j + 1)%nat)).
Definition s6 : option vertex := if decide (hi1 < lo1)%Z then Some (V1 hi1) else None.
Definition s0 : option vertex := if decide (hi1 ≤ lo1)%Z then Some (V1 lo1) else None.
Definition s4 : option vertex := if decide (hi2 < lo2)%Z then Some (V2 hi2) else None.
Definition s2 : option vertex := if decide (hi2 ≤ lo2)%Z then Some (V2 lo2) else None.
Definition s5 : option vertex := if line_intersection (A1 C i) (A2 C i) (B1 C j) (B2 C j) then Some (VX (A1 C i) (A2 C i) (B1 C j) (B2 C j)) else None.
Definition s1 : option vertex := if line_intersection (A1 C (i + 1)%nat) (A2 C (i + 1)%nat) (B1 C (j + 1)%nat) (B2 C (j + 1)%nat) then Some (VX (A1 C (i + 1)%nat) (A2 C (i + 1)%nat) (B1 C (j + 1)%nat) (B2 C (j + 1)%nat)) else None.

Lemma VX_at p1 p2 q1 q2 : crossing z1 z2 p1 p2 q1 q2 → ∃ t, 0 < t < 1 ∧ line z1 z2 p1 p2 t = line z1 z2 q1 q2 t ∧ is_at (VX p1 p2 q1 q2) t (line z1 z2 p1 p2 t).
Proof.
  intros Hc. destruct (crossing_at z1 z2 p1 p2 q1 q2 Hc) as (t & Ht & E). exists t. split; [done|]. split; [done|]. intros t' z'. cbn [at_vertex]. split.
  - intros (Ht' & E1 & E2 & _). assert (t' = t) as -> by (eapply (crossing_unique z1 z2 p1 p2 q1 q2); [done| |done]; congruence). done.
  - intros [-> ->]. done.
Qed.
Lemma hi1_r : z1 hi1 = U 0.
Proof using Hz1. unfold U, lineA, lineB, line. rewrite !Rminus_0_r, !Rmult_1_l, !Rmult_0_l, !Rplus_0_r. unfold Rmax. destruct (Rle_dec u w) as [H|H]; rewrite (z1_le z1 Hz1) in H; f_equal; lia. Qed.
Lemma lo1_r : z1 lo1 = L 0.
Proof using Hz1. unfold L, lineA, lineB, line. rewrite !Rminus_0_r, !Rmult_1_l, !Rmult_0_l, !Rplus_0_r. unfold Rmin. destruct (Rle_dec v x) as [H|H]; rewrite (z1_le z1 Hz1) in H; f_equal; lia. Qed.
Lemma hi2_r : z2 hi2 = U 1.
Proof using Hz2. unfold U, lineA, lineB, line. rewrite !Rminus_eq_0, !Rmult_1_l, !Rmult_0_l, !Rplus_0_l. unfold Rmax. destruct (Rle_dec u' w') as [H|H]; rewrite (z2_le z2 Hz2) in H; f_equal; lia. Qed.
Lemma lo2_r : z2 lo2 = L 1.
Proof using Hz2. unfold L, lineA, lineB, line. rewrite !Rminus_eq_0, !Rmult_1_l, !Rmult_0_l, !Rplus_0_l. unfold Rmin. destruct (Rle_dec v' x') as [H|H]; rewrite (z2_le z2 Hz2) in H; f_equal; lia. Qed.

(** The left end: the slots 7, 6 and 0. *)
Definition left_slots (tl : R) (up down : list vertex) : Prop :=
  (∃ s, up = [s] ∧ down = [] ∧ is_at s tl (U tl) ∧ U tl = L tl) ∨ (∃ s, up = [] ∧ down = [s] ∧ is_at s tl (L tl) ∧ U tl = L tl) ∨
  (∃ s s', up = [s] ∧ down = [s'] ∧ is_at s tl (U tl) ∧ is_at s' tl (L tl) ∧ U tl < L tl).
Lemma left_end : overlap z1 z2 C i j → ∃ tl, 0 <= tl < 1 ∧ (tl = 0 ∨ U tl = L tl) ∧ (∀ t z, common z1 z2 C i j t z → tl <= t) ∧
  left_slots tl (present [s7; s6]) (present [s0]).
Proof using Hz1 Hz2 MA MB.
  intros (t1 & y & Ht1 & G1 & G2 & G3 & G4). unfold left_slots, s7, s6, s0. destruct MAr as [Ma Ma'], MBr as [Mb Mb'].
  destruct (decide (B1 C (j + 1)%nat < A1 C i)%Z) as [H|H].
  { rewrite !decide_False by lia. pose proof (Hz1 _ _ H) as Hx. assert (Hc : crossing z1 z2 (A1 C i) (A2 C i) (B1 C (j + 1)%nat) (B2 C (j + 1)%nat)). { unfold crossing. unfold lineA, lineB, line in *. assert (u' < x') by nra. nra. }
    destruct (VX_at _ _ _ _ Hc) as (t & Ht & E & Hat). unfold crossing in Hc. assert (u' < x') by nra. exists t. fold (la t) (lb' t) in E. fold (la t) in Hat.
    assert (EU : U t = la t). { destruct (U_cases t) as [[? ?]|[EU ?]]; [done|]. unfold lineA, lineB, line in *. nra. }
    assert (EL : L t = lb' t). { destruct (L_cases t) as [[EL ?]|[? ?]]; [|done]. unfold lineA, lineB, line in *. nra. }
    split; [lra|]. split; [right; congruence|]. split.
    - intros s z (Hs & K1 & K2 & K3 & K4). destruct (Rle_dec t s); [done|]. exfalso. unfold lineA, lineB, line in *. nra.
    - left. eexists. split; [done|]. split; [done|]. rewrite EU. split; [done|congruence]. }
  destruct (decide (A1 C (i + 1)%nat < B1 C j)%Z) as [H'|H'].
  { rewrite !decide_False by lia. pose proof (Hz1 _ _ H') as Hx. assert (Hc : crossing z1 z2 (A1 C (i + 1)%nat) (A2 C (i + 1)%nat) (B1 C j) (B2 C j)). { unfold crossing. unfold lineA, lineB, line in *. assert (w' < v') by nra. nra. }
    destruct (VX_at _ _ _ _ Hc) as (t & Ht & E & Hat). unfold crossing in Hc. assert (w' < v') by nra. exists t. fold (la' t) (lb t) in E. fold (la' t) in Hat.
    assert (EU : U t = lb t). { destruct (U_cases t) as [[EU ?]|[? ?]]; [|done]. unfold lineA, lineB, line in *. nra. }
    assert (EL : L t = la' t). { destruct (L_cases t) as [[? ?]|[EL ?]]; [done|]. unfold lineA, lineB, line in *. nra. }
    split; [lra|]. split; [right; congruence|]. split.
    - intros s z (Hs & K1 & K2 & K3 & K4). destruct (Rle_dec t s); [done|]. exfalso. unfold lineA, lineB, line in *. nra.
    - left. eexists. split; [done|]. split; [done|]. rewrite EU. split; [rewrite <- E; exact Hat|congruence]. }
  assert (Hle : (hi1 ≤ lo1)%Z) by lia. rewrite (decide_True _ _ Hle).
  exists 0. split; [lra|]. split; [by left|]. split; [intros t z [? _]; lra|]. assert (Hat : ∀ p, is_at (V1 p) 0 (z1 p)) by (intros p t z; done).
  destruct (decide (hi1 < lo1)%Z) as [Hlt|Hlt].
  - right. right. exists (V1 hi1), (V1 lo1). split; [done|]. split; [done|]. rewrite <- hi1_r, <- lo1_r. split; [apply Hat|]. split; [apply Hat|]. by apply Hz1.
  - right. left. exists (V1 lo1). split; [done|]. split; [done|]. rewrite <- hi1_r, <- lo1_r. split; [apply Hat|]. f_equal. lia.
Qed.
Lemma right_end : overlap z1 z2 C i j → ∃ tr, 0 < tr <= 1 ∧ (tr = 1 ∨ U tr = L tr) ∧ (∀ t z, common z1 z2 C i j t z → t <= tr) ∧
  left_slots tr (present [s4; s3]) (present [s2]).
Proof using Hz1 Hz2 MA MB.
  intros (t1 & y & Ht1 & G1 & G2 & G3 & G4). unfold left_slots, s4, s3, s2. destruct MAr as [Ma Ma'], MBr as [Mb Mb'].
  destruct (decide (B2 C (j + 1)%nat < A2 C i)%Z) as [H|H].
  { rewrite !decide_False by lia. pose proof (Hz2 _ _ H) as Hx. assert (Hc : crossing z1 z2 (A1 C i) (A2 C i) (B1 C (j + 1)%nat) (B2 C (j + 1)%nat)). { unfold crossing. unfold lineA, lineB, line in *. assert (u < x) by nra. nra. }
    destruct (VX_at _ _ _ _ Hc) as (t & Ht & E & Hat). unfold crossing in Hc. assert (u < x) by nra. exists t. fold (la t) (lb' t) in E. fold (la t) in Hat.
    assert (EU : U t = la t). { destruct (U_cases t) as [[? ?]|[EU ?]]; [done|]. unfold lineA, lineB, line in *. nra. }
    assert (EL : L t = lb' t). { destruct (L_cases t) as [[EL ?]|[? ?]]; [|done]. unfold lineA, lineB, line in *. nra. }
    split; [lra|]. split; [right; congruence|]. split.
    - intros s z (Hs & K1 & K2 & K3 & K4). destruct (Rle_dec s t); [done|]. exfalso. unfold lineA, lineB, line in *. nra.
    - left. eexists. split; [done|]. split; [done|]. rewrite EU. split; [done|congruence]. }
  destruct (decide (A2 C (i + 1)%nat < B2 C j)%Z) as [H'|H'].
  { rewrite !decide_False by lia. pose proof (Hz2 _ _ H') as Hx. assert (Hc : crossing z1 z2 (A1 C (i + 1)%nat) (A2 C (i + 1)%nat) (B1 C j) (B2 C j)). { unfold crossing. unfold lineA, lineB, line in *. assert (w < v) by nra. nra. }
    destruct (VX_at _ _ _ _ Hc) as (t & Ht & E & Hat). unfold crossing in Hc. assert (w < v) by nra. exists t. fold (la' t) (lb t) in E. fold (la' t) in Hat.
    assert (EU : U t = lb t). { destruct (U_cases t) as [[EU ?]|[? ?]]; [|done]. unfold lineA, lineB, line in *. nra. }
    assert (EL : L t = la' t). { destruct (L_cases t) as [[? ?]|[EL ?]]; [done|]. unfold lineA, lineB, line in *. nra. }
    split; [lra|]. split; [right; congruence|]. split.
    - intros s z (Hs & K1 & K2 & K3 & K4). destruct (Rle_dec s t); [done|]. exfalso. unfold lineA, lineB, line in *. nra.
    - left. eexists. split; [done|]. split; [done|]. rewrite EU. split; [rewrite <- E; exact Hat|congruence]. }
  assert (Hle : (hi2 ≤ lo2)%Z) by lia. rewrite (decide_True _ _ Hle).
  exists 1. split; [lra|]. split; [by left|]. split; [intros t z [? _]; lra|]. assert (Hat : ∀ p, is_at (V2 p) 1 (z2 p)) by (intros p t z; done).
  destruct (decide (hi2 < lo2)%Z) as [Hlt|Hlt].
  - right. right. exists (V2 hi2), (V2 lo2). split; [done|]. split; [done|]. rewrite <- hi2_r, <- lo2_r. split; [apply Hat|]. split; [apply Hat|]. by apply Hz2.
  - right. left. exists (V2 lo2). split; [done|]. split; [done|]. rewrite <- hi2_r, <- lo2_r. split; [apply Hat|]. f_equal. lia.
Qed.

Definition slot (l : list vertex) (t z : R) : Prop := l = [] ∨ ∃ s, l = [s] ∧ is_at s t z.
Lemma slot_in l t z s t' z' : slot l t z → s ∈ l → at_vertex z1 z2 s t' z' → t' = t ∧ z' = z.
Proof. intros [-> |(s' & -> & H)] Hs Ha; [by apply elem_of_nil in Hs|]. apply elem_of_list_singleton in Hs as ->. by apply H. Qed.
Lemma three_sorted l1 l2 l3 t1 t2 t3 y1 y2 y3 (rel : R → R → Prop) : slot l1 t1 y1 → slot l2 t2 y2 → slot l3 t3 y3 → rel t1 t2 → rel t2 t3 → rel t1 t3 →
  ∀ k l a b t z t' z', (k < l)%nat → (l1 ++ l2 ++ l3) !! k = Some a → (l1 ++ l2 ++ l3) !! l = Some b → at_vertex z1 z2 a t z → at_vertex z1 z2 b t' z' → rel t t'.
Proof.
  intros H1 H2 H3 R12 R23 R13 k l a b t z t' z' Hkl Ha Hb Hta Htb.
  destruct H1 as [-> |(x1 & -> & H1)], H2 as [-> |(x2 & -> & H2)], H3 as [-> |(x3 & -> & H3)]; cbn [app] in Ha, Hb;
    (destruct k as [|[|[|k]]]; cbn in Ha; try done); (destruct l as [|[|[|l]]]; cbn in Hb; try done; try lia); simplify_eq;
    repeat match goal with H : is_at ?s _ _, H' : at_vertex _ _ ?s _ _ |- _ => apply H in H' as [-> ->] end; done.
Qed.
Lemma kink p1 p2 q1 q2 (F G : R → R) : (∀ t, 0 < t < 1 → line z1 z2 p1 p2 t = line z1 z2 q1 q2 t → F t = line z1 z2 p1 p2 t) →
  ∃ ks, present [if line_intersection p1 p2 q1 q2 then Some (VX p1 p2 q1 q2) else None] = ks ∧
  ((ks = [] ∧ ¬ crossing z1 z2 p1 p2 q1 q2) ∨ ∃ s t, ks = [s] ∧ crossing z1 z2 p1 p2 q1 q2 ∧ 0 < t < 1 ∧ line z1 z2 p1 p2 t = line z1 z2 q1 q2 t ∧ is_at s t (F t)).
Proof using Hz1 Hz2.
  intros HF. eexists. split; [done|]. destruct (line_intersection p1 p2 q1 q2) eqn:E.
  - right. apply (crossing_iff z1 z2 Hz1 Hz2) in E as Hc. destruct (VX_at _ _ _ _ Hc) as (t & Ht & Et & Hat). exists (VX p1 p2 q1 q2), t. rewrite (HF t Ht Et). done.
  - left. split; [done|]. intros Hc%(crossing_iff z1 z2 Hz1 Hz2). congruence.
Qed.

Definition corners : list vertex := present [s7; s6; s5; s4; s3; s2; s1; s0].
Lemma present_app l l' : present (l ++ l') = present l ++ present l'.
Proof. apply omap_app. Qed.
Lemma corners_polygon : overlap z1 z2 C i j → polygon z1 z2 C i j corners.
Proof using Hz1 Hz2 MA MB.
  intros Ho. destruct (left_end Ho) as (tl & Htl & Htl' & Hltl & HL). destruct (right_end Ho) as (tr & Htr & Htr' & Hrtr & HR). destruct MAr as [Ma Ma'], MBr as [Mb Mb'].
  destruct (overlap_thick Ho) as [Ta%thickA_r Tb%thickB_r].
  assert (Hthick : ∀ t, 0 < t < 1 → la t < la' t ∧ lb t < lb' t). { intros t Ht. unfold lineA, lineB, line. split; [destruct Ta; nra|destruct Tb; nra]. }
  assert (Hin : ∀ t, 0 < t < 1 → U t < L t → tl < t < tr).
  { intros t Ht HUL. assert (Hc : common z1 z2 C i j t (U t)) by (apply common_UL; lra). pose proof (Hltl _ _ Hc). pose proof (Hrtr _ _ Hc). split.
    - destruct (Req_dec tl t) as [E|]; [|lra]. destruct Htl' as [|Htl']; [lra|]. rewrite E in Htl'. lra.
    - destruct (Req_dec tr t) as [E|]; [|lra]. destruct Htr' as [|Htr']; [lra|]. rewrite E in Htr'. lra. }
  assert (Hlr : tl < tr). { destruct Ho as (t & z & Ht & G1 & G2 & G3 & G4). assert (U t < L t) by (destruct (U_cases t), (L_cases t); lra). pose proof (Hin t Ht). lra. }
  assert (KU : ∀ t, 0 < t < 1 → la t = lb t → U t = la t ∧ U t < L t). { intros t Ht E. destruct (Hthick t Ht). destruct (U_cases t) as [[? ?]|[? ?]], (L_cases t) as [[? ?]|[? ?]]; lra. }
  assert (KL : ∀ t, 0 < t < 1 → la' t = lb' t → L t = la' t ∧ U t < L t). { intros t Ht E. destruct (Hthick t Ht). destruct (U_cases t) as [[? ?]|[? ?]], (L_cases t) as [[? ?]|[? ?]]; lra. }
  destruct (kink (A1 C i) (A2 C i) (B1 C j) (B2 C j) U U) as (ku & Eku & Hku). { intros t Ht E. by apply KU. }
  destruct (kink (A1 C (i + 1)%nat) (A2 C (i + 1)%nat) (B1 C (j + 1)%nat) (B2 C (j + 1)%nat) L L) as (kl & Ekl & Hkl). { intros t Ht E. by apply KL. }
  fold s5 in Eku. fold s1 in Ekl. set (ul := present [s7; s6]) in *. set (dl := present [s0]) in *. set (ur := present [s4; s3]) in *. set (dr := present [s2]) in *.
  assert (Evs : corners = (ul ++ ku ++ ur) ++ (dr ++ kl ++ dl)).
  { unfold corners, ul, dl, ur, dr. rewrite <- Eku, <- Ekl. rewrite <- !app_assoc, <- !present_app. done. }
  (* slots *)
  assert (Sul : slot ul tl (U tl)) by (destruct HL as [(s & -> & _ & ? & _)|[(s & -> & _)|(s & s' & -> & _ & ? & _)]]; [right; by exists s|by left|right; by exists s]).
  assert (Sdl : slot dl tl (L tl)) by (destruct HL as [(s & _ & -> & _)|[(s & _ & -> & ? & _)|(s & s' & _ & -> & _ & ? & _)]]; [by left|right; by exists s|right; by exists s']).
  assert (Sur : slot ur tr (U tr)) by (destruct HR as [(s & -> & _ & ? & _)|[(s & -> & _)|(s & s' & -> & _ & ? & _)]]; [right; by exists s|by left|right; by exists s]).
  assert (Sdr : slot dr tr (L tr)) by (destruct HR as [(s & _ & -> & _)|[(s & _ & -> & ? & _)|(s & s' & _ & -> & _ & ? & _)]]; [by left|right; by exists s|right; by exists s']).
  assert (Sku : ∃ t, tl < t < tr ∧ U t < L t ∧ slot ku t (U t)).
  { destruct Hku as [[-> _]|(s & t & -> & _ & Ht & E & Hat)].
    - destruct Ho as (t & z & Ht & G1 & G2 & G3 & G4). exists t. assert (U t < L t) by (destruct (U_cases t), (L_cases t); lra). split; [by apply Hin|]. split; [done|by left].
    - destruct (KU t Ht E) as [_ HUL]. exists t. split; [by apply Hin|]. split; [done|]. right. by exists s. }
  assert (Skl : ∃ t, tl < t < tr ∧ U t < L t ∧ slot kl t (L t)).
  { destruct Hkl as [[-> _]|(s & t & -> & _ & Ht & E & Hat)].
    - destruct Ho as (t & z & Ht & G1 & G2 & G3 & G4). exists t. assert (U t < L t) by (destruct (U_cases t), (L_cases t); lra). split; [by apply Hin|]. split; [done|by left].
    - destruct (KL t Ht E) as [_ HUL]. exists t. split; [by apply Hin|]. split; [done|]. right. by exists s. }
  destruct Sku as (tu & Htu & HUu & Sku), Skl as (td & Htd & HUd & Skl).
  (* membership *)
  assert (Hup : ∀ s t z, s ∈ ul ++ ku ++ ur → at_vertex z1 z2 s t z → z = U t ∧ tl <= t <= tr).
  { intros s t z Hs Ha. rewrite !elem_of_app in Hs. destruct Hs as [Hs|[Hs|Hs]]; [destruct (slot_in _ _ _ _ _ _ Sul Hs Ha) as [-> ->]|destruct (slot_in _ _ _ _ _ _ Sku Hs Ha) as [-> ->]|destruct (slot_in _ _ _ _ _ _ Sur Hs Ha) as [-> ->]]; split; lra. }
  assert (Hdo : ∀ s t z, s ∈ dr ++ kl ++ dl → at_vertex z1 z2 s t z → z = L t ∧ tl <= t <= tr).
  { intros s t z Hs Ha. rewrite !elem_of_app in Hs. destruct Hs as [Hs|[Hs|Hs]]; [destruct (slot_in _ _ _ _ _ _ Sdr Hs Ha) as [-> ->]|destruct (slot_in _ _ _ _ _ _ Skl Hs Ha) as [-> ->]|destruct (slot_in _ _ _ _ _ _ Sdl Hs Ha) as [-> ->]]; split; lra. }
  assert (HULle : ∀ t, tl <= t <= tr → U t <= L t).
  { assert (E0 : U tl <= L tl) by (destruct HL as [(s & _ & _ & _ & ?)|[(s & _ & _ & _ & ?)|(s & s' & _ & _ & _ & _ & ?)]]; lra). assert (E1 : U tr <= L tr) by (destruct HR as [(s & _ & _ & _ & ?)|[(s & _ & _ & _ & ?)|(s & s' & _ & _ & _ & _ & ?)]]; lra).
    intros t Ht. assert (Hl : (t - tl) / (tr - tl) * (tr - tl) = t - tl) by (field; lra). set (l := (t - tl) / (tr - tl)) in *. assert (Et : t = (1 - l) * tl + l * tr) by lra. assert (Hl01 : 0 <= l <= 1) by (split; nra). clearbody l. subst t. clear - E0 E1 Hl01.
    assert (Haff : ∀ p q, line z1 z2 p q ((1 - l) * tl + l * tr) = (1 - l) * line z1 z2 p q tl + l * line z1 z2 p q tr) by (intros; unfold line; ring).
    assert (K : ∀ f g f' g' : R, f <= g → f' <= g' → (1 - l) * f + l * f' <= (1 - l) * g + l * g') by (intros; nra).
    assert (Q1 : la tl <= la' tl ∧ la tl <= lb' tl ∧ lb tl <= la' tl ∧ lb tl <= lb' tl) by (destruct (U_cases tl), (L_cases tl); lra).
    assert (Q2 : la tr <= la' tr ∧ la tr <= lb' tr ∧ lb tr <= la' tr ∧ lb tr <= lb' tr) by (destruct (U_cases tr), (L_cases tr); lra).
    unfold U, L. apply Rmax_lub; apply Rmin_glb; unfold lineA, lineB; rewrite !Haff; apply K; apply Q1 || apply Q2. }
  split.
  - intros s Hs. rewrite Evs in Hs. rewrite !elem_of_app in Hs.
    assert (G : ∀ l t z, slot l t z → s ∈ l → ∃ t z, at_vertex z1 z2 s t z). { intros l t z [-> |(s' & -> & H)] Hs'; [by apply elem_of_nil in Hs'|]. apply elem_of_list_singleton in Hs' as ->. exists t, z. by apply H. }
    destruct Hs as [[Hs|[Hs|Hs]]|[Hs|[Hs|Hs]]]; eauto.
  - intros k l a b t z. rewrite Evs. intros Ha Hb Hta Htb.
    assert (G1 := three_sorted _ _ _ _ _ _ _ _ _ Rlt Sul Sku Sur ltac:(lra) ltac:(lra) ltac:(lra)).
    assert (G2 := three_sorted _ _ _ _ _ _ _ _ _ Rgt Sdr Skl Sdl ltac:(lra) ltac:(lra) ltac:(lra)).
    assert (G3 : ∀ s s', s ∈ ul ++ ku ++ ur → s' ∈ dr ++ kl ++ dl → at_vertex z1 z2 s t z → at_vertex z1 z2 s' t z → False).
    { intros s s' Hs Hs' Hts Hts'. destruct (Hup s t z Hs Hts) as [E1 _]. destruct (Hdo s' t z Hs' Hts') as [E2 _]. assert (EUL : U t = L t) by congruence. rewrite !elem_of_app in Hs, Hs'.
      destruct Hs as [Hs|[Hs|Hs]].
      - destruct (slot_in _ _ _ _ _ _ Sul Hs Hts) as [Et _]. destruct Hs' as [Hs'|[Hs'|Hs']]; [destruct (slot_in _ _ _ _ _ _ Sdr Hs' Hts') as [Et' _]; lra|destruct (slot_in _ _ _ _ _ _ Skl Hs' Hts') as [Et' _]; lra|].
        destruct HL as [(x0 & _ & Ed & _)|[(x0 & Eu & _)|(x0 & x0' & _ & _ & _ & _ & ?)]]; [rewrite Ed in Hs'; by apply elem_of_nil in Hs'|rewrite Eu in Hs; by apply elem_of_nil in Hs|rewrite Et in EUL; lra].
      - destruct (slot_in _ _ _ _ _ _ Sku Hs Hts) as [Et _]. rewrite Et in EUL. lra.
      - destruct (slot_in _ _ _ _ _ _ Sur Hs Hts) as [Et _]. destruct Hs' as [Hs'|[Hs'|Hs']]; [|destruct (slot_in _ _ _ _ _ _ Skl Hs' Hts') as [Et' _]; lra|destruct (slot_in _ _ _ _ _ _ Sdl Hs' Hts') as [Et' _]; lra].
        destruct HR as [(x0 & _ & Ed & _)|[(x0 & Eu & _)|(x0 & x0' & _ & _ & _ & _ & ?)]]; [rewrite Ed in Hs'; by apply elem_of_nil in Hs'|rewrite Eu in Hs; by apply elem_of_nil in Hs|rewrite Et in EUL; lra]. }
    apply lookup_app_Some in Ha as [Ha|[Hk Ha]], Hb as [Hb|[Hl Hb]].
    + destruct (Nat.lt_trichotomy k l) as [Hlt|[?|Hlt]]; [|done|]; exfalso; [specialize (G1 _ _ _ _ _ _ _ _ Hlt Ha Hb Hta Htb)|specialize (G1 _ _ _ _ _ _ _ _ Hlt Hb Ha Htb Hta)]; lra.
    + exfalso. eapply (G3 a b); try done; by eapply elem_of_list_lookup_2.
    + exfalso. eapply (G3 b a); try done; by eapply elem_of_list_lookup_2.
    + destruct (Nat.lt_trichotomy (k - length (ul ++ ku ++ ur)) (l - length (ul ++ ku ++ ur))) as [Hlt|[?|Hlt]]; [|lia|]; exfalso; [specialize (G2 _ _ _ _ _ _ _ _ Hlt Ha Hb Hta Htb)|specialize (G2 _ _ _ _ _ _ _ _ Hlt Hb Ha Htb Hta)]; lra.
  - intros t z. split.
    + induction 1 as [s t z Hs Ha|t z t' z' l _ IH1 _ IH2 Hl].
      * rewrite Evs, elem_of_app in Hs. destruct Hs as [Hs|Hs]; [destruct (Hup s t z Hs Ha) as [-> Ht]|destruct (Hdo s t z Hs Ha) as [-> Ht]]; apply common_UL; pose proof (HULle t Ht); lra.
      * destruct IH1 as (I1 & I2 & I3 & I4 & I5), IH2 as (J1 & J2 & J3 & J4 & J5).
        assert (Haff : ∀ p q, line z1 z2 p q ((1 - l) * t + l * t') = (1 - l) * line z1 z2 p q t + l * line z1 z2 p q t') by (intros; unfold line; ring).
        assert (K : ∀ f g f' g' : R, f <= g → f' <= g' → (1 - l) * f + l * f' <= (1 - l) * g + l * g') by (clear - Hl; intros; nra).
        unfold common, lineA, lineB in *. rewrite !Haff. split; [clear - Hl I1 J1; split; nra|]. split_and!; apply K; done.
    + intros Hc. pose proof (Hltl _ _ Hc). pose proof (Hrtr _ _ Hc). apply common_UL in Hc as (Ht & H1 & H2).
      assert (Hhull : ∀ s a b, s ∈ corners → is_at s a b → hull z1 z2 corners a b) by (intros s a b Hs Ha; apply (hull_vertex z1 z2 corners s); [done|by apply Ha]).
      assert (Inul : ∀ s, s ∈ ul → s ∈ corners) by (intros s; rewrite Evs, !elem_of_app; clear; tauto). assert (Indl : ∀ s, s ∈ dl → s ∈ corners) by (intros s; rewrite Evs, !elem_of_app; clear; tauto).
      assert (Inur : ∀ s, s ∈ ur → s ∈ corners) by (intros s; rewrite Evs, !elem_of_app; clear; tauto). assert (Indr : ∀ s, s ∈ dr → s ∈ corners) by (intros s; rewrite Evs, !elem_of_app; clear; tauto).
      assert (Inku : ∀ s, s ∈ ku → s ∈ corners) by (intros s; rewrite Evs, !elem_of_app; clear; tauto). assert (Inkl : ∀ s, s ∈ kl → s ∈ corners) by (intros s; rewrite Evs, !elem_of_app; clear; tauto).
      assert (HlU : hull z1 z2 corners tl (U tl) ∧ hull z1 z2 corners tl (L tl)).
      { destruct HL as [(s & Eu & _ & Hat & E)|[(s & _ & Ed & Hat & E)|(s & s' & Eu & Ed & Hat & Hat' & _)]].
        - rewrite <- E. split; apply (Hhull s); try done; apply Inul; rewrite Eu; by apply elem_of_list_singleton.
        - rewrite E. split; apply (Hhull s); try done; apply Indl; rewrite Ed; by apply elem_of_list_singleton.
        - split; [apply (Hhull s); [apply Inul; rewrite Eu; by apply elem_of_list_singleton|done]|apply (Hhull s'); [apply Indl; rewrite Ed; by apply elem_of_list_singleton|done]]. }
      assert (HrU : hull z1 z2 corners tr (U tr) ∧ hull z1 z2 corners tr (L tr)).
      { destruct HR as [(s & Eu & _ & Hat & E)|[(s & _ & Ed & Hat & E)|(s & s' & Eu & Ed & Hat & Hat' & _)]].
        - rewrite <- E. split; apply (Hhull s); try done; apply Inur; rewrite Eu; by apply elem_of_list_singleton.
        - rewrite E. split; apply (Hhull s); try done; apply Indr; rewrite Ed; by apply elem_of_list_singleton.
        - split; [apply (Hhull s); [apply Inur; rewrite Eu; by apply elem_of_list_singleton|done]|apply (Hhull s'); [apply Indr; rewrite Ed; by apply elem_of_list_singleton|done]]. }
      assert (P1 : hull z1 z2 corners t (U t)).
      { apply (upper_hull corners tl tr); [lra|lra|apply HlU|apply HrU| |lra]. intros s Hs Hc E. destruct Hku as [[_ Hn]|(s' & t' & Eu & _ & Ht' & E' & Hat)]; [done|]. assert (s = t') as -> by (eapply crossing_unique; [exact Hc|exact E|exact E']). apply (Hhull s'); [|done]. apply Inku. rewrite Eu. by apply elem_of_list_singleton. }
      assert (P2 : hull z1 z2 corners t (L t)).
      { apply (lower_hull corners tl tr); [lra|lra|apply HlU|apply HrU| |lra]. intros s Hs Hc E. destruct Hkl as [[_ Hn]|(s' & t' & Eu & _ & Ht' & E' & Hat)]; [done|]. assert (s = t') as -> by (eapply crossing_unique; [exact Hc|exact E|exact E']). apply (Hhull s'); [|done]. apply Inkl. rewrite Eu. by apply elem_of_list_singleton. }
      destruct (Req_dec (U t) (L t)) as [E|Hne]; [by replace z with (U t) by lra|].
      assert (Hl : (z - U t) / (L t - U t) * (L t - U t) = z - U t) by (field; lra). set (l := (z - U t) / (L t - U t)) in *.
      eapply hull_eq; [apply (hull_between z1 z2 corners t (U t) t (L t) l P1 P2)| |]; [split; nra|ring|lra].
  - exists (ul ++ ku ++ ur), (dr ++ kl ++ dl). split; [done|]. split; [intros; by eapply Hup|]. split; [intros; by eapply Hdo|].
    split; intros k a b t z t' z' Ha Hb Hta Htb.
    + by apply (three_sorted _ _ _ _ _ _ _ _ _ Rlt Sul Sku Sur ltac:(lra) ltac:(lra) ltac:(lra) k (S k) a b t z t' z' (Nat.lt_succ_diag_r k)).
    + cut (t > t'); [lra|]. by apply (three_sorted _ _ _ _ _ _ _ _ _ Rgt Sdr Skl Sdl ltac:(lra) ltac:(lra) ltac:(lra) k (S k) a b t z t' z' (Nat.lt_succ_diag_r k)).
Qed.
End strips.
