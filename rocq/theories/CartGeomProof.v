(** Geometry of Cartesian grids: vocabulary and the values of all entries. *)
From Coq Require Import Reals Lra.
From Verif Require Import Base LoopModel LoopProof CartModel CartSpec CartProof Cart2Proof GridModel GridSpec.
Local Open Scope R_scope.

(** Vectors. *)
Notation vec := (R * R * R)%type.
Definition vdot (u v : vec) : R := u.1.1 * v.1.1 + u.1.2 * v.1.2 + u.2 * v.2.
Definition vadd (u v : vec) : vec := (u.1.1 + v.1.1, u.1.2 + v.1.2, u.2 + v.2).
Definition vscale (a : R) (v : vec) : vec := (a * v.1.1, a * v.1.2, a * v.2).
Definition vsub (u v : vec) : vec := vadd u (vscale (-1) v).
Definition vcross (u v : vec) : vec :=
  (u.1.2 * v.2 - u.2 * v.1.2, u.2 * v.1.1 - u.1.1 * v.2, u.1.1 * v.1.2 - u.1.2 * v.1.1).
Definition vsum (l : list vec) : vec := foldr vadd (0, 0, 0) l.
(** The [n]-th vector of an array of coordinates. *)
Definition at3 (l : list R) (n : nat) (v : vec) : Prop := slice l (3 * n) 3 = Some [v.1.1; v.1.2; v.2].
Notation vec2 := (R * R)%type.
Definition at2 (l : list R) (n : nat) (v : vec2) : Prop := slice l (2 * n) 2 = Some [v.1; v.2].
Definition vdot2 (u v : vec2) : R := u.1 * v.1 + u.2 * v.2.
Definition vsub2 (u v : vec2) : vec2 := (u.1 - v.1, u.2 - v.2).
(** A vector turned to the right by a right angle. *)
Definition vright (u : vec2) : vec2 := (u.2, - u.1).

Lemma at3_fun l n u v : at3 l n u → at3 l n v → u = v.
Proof. unfold at3. intros -> H. injection H as H1 H2 H3. destruct u as [[]], v as [[]]; simpl in *. congruence. Qed.
Lemma at2_fun l n u v : at2 l n u → at2 l n v → u = v.
Proof. unfold at2. intros -> H. injection H as H1 H2. destruct u, v; simpl in *. congruence. Qed.

Definition co (x : list R) (i : nat) : R := default 0 (x !! i).
Definition increasing (x : list R) : Prop := ∀ i a b, x !! i = Some a → x !! S i = Some b → a < b.
Lemma co_get x i : (i < length x)%nat → x !! i = Some (co x i).
Proof. intros H. apply lookup_lt_is_Some_2 in H as [a E]. unfold co. by rewrite E. Qed.
Lemma co_two x i : (i + 1 < length x)%nat → two x i = Some (co x i, co x (i + 1)).
Proof. intros H. unfold two. rewrite (co_get x i) by lia. rewrite (co_get x (i+1)) by lia. done. Qed.
Lemma co_inc x i : increasing x → (i + 1 < length x)%nat → co x i < co x (i + 1).
Proof. intros Hx H. apply (Hx i); [apply co_get; lia|]. replace (S i) with (i + 1)%nat by lia. apply co_get. lia. Qed.

Section g3.
Variables nx ny nz : nat.
Variables x y z : list R.
Hypotheses (Lx : length x = (nx + 1)%nat) (Ly : length y = (ny + 1)%nat) (Lz : length z = (nz + 1)%nat).
Notation X := (co x).
Notation Y := (co y).
Notation Z := (co z).
Definition mid (x : list R) i := (co x i + co x (i + 1)%nat) / 2.
Definition gap (x : list R) i := co x (i + 1)%nat - co x i.
Definition ccent i j k : list R := [mid x i; mid y j; mid z k].
Definition cvol i j k : list R := [gap x i * gap y j * gap z k].
Definition fnorm d i j k : list R :=
  match d with DX => [gap y j * gap z k; 0; 0] | DY => [0; gap x i * gap z k; 0] | DZ => [0; 0; gap x i * gap y j] end.
Definition fcent d i j k : list R :=
  match d with DX => [X i; mid y j; mid z k] | DY => [mid x i; Y j; mid z k] | DZ => [mid x i; mid y j; Z k] end.
Definition farea d i j k : list R :=
  match d with DX => [gap y j * gap z k] | DY => [gap x i * gap z k] | DZ => [gap x i * gap y j] end.
Definition ncoord i j k : list R := [X i; Y j; Z k].

Lemma gcells3_ok s : gcells3 nx ny nz x y z s = par (λ s, puts s (flat3 nx ny nz ccent)) (λ s, puts s (flat3 nx ny nz cvol)) s.
Proof.
  transitivity (nest3 nx ny nz (λ i j k, par (λ s, puts s (ccent i j k)) (λ s, puts s (cvol i j k))) s).
  { apply (nest3_ext nx ny nz). intros i j k [a b] Hi Hj Hk.
    rewrite (co_two x i), (co_two y j), (co_two z k) by lia. done. }
  rewrite nest3_par. apply par_ext; apply nest3_puts.
Qed.
Ltac faces := intros i j k [[a b] c] Hi Hj Hk; rewrite ?(co_two x i), ?(co_two y j), ?(co_two z k) by lia;
  rewrite ?(co_get x i), ?(co_get y j), ?(co_get z k) by lia; unfold par; cbn [fst snd mbind option_bind];
  unfold fnorm, fcent, farea, mid, gap; destruct (puts a _); [|done]; cbn [mbind option_bind]; by destruct (puts b _).
Definition faces_par (A B C : nat) d (s : stream R * stream R * stream R) :=
  par (par (λ s, puts s (flat3 A B C (fnorm d))) (λ s, puts s (flat3 A B C (fcent d)))) (λ s, puts s (flat3 A B C (farea d))) s.
Lemma gxfaces3_ok s : gxfaces3 nx ny nz x y z s = faces_par (nx+1) ny nz DX s.
Proof.
  transitivity (nest3 (nx+1) ny nz (λ i j k, par (par (λ s, puts s (fnorm DX i j k)) (λ s, puts s (fcent DX i j k))) (λ s, puts s (farea DX i j k))) s).
  { apply (nest3_ext (nx+1) ny nz). faces. }
  rewrite nest3_par. apply par_ext; [|apply nest3_puts]. rewrite nest3_par. apply par_ext; apply nest3_puts.
Qed.
Lemma gyfaces3_ok s : gyfaces3 nx ny nz x y z s = faces_par nx (ny+1) nz DY s.
Proof.
  transitivity (nest3 nx (ny+1) nz (λ i j k, par (par (λ s, puts s (fnorm DY i j k)) (λ s, puts s (fcent DY i j k))) (λ s, puts s (farea DY i j k))) s).
  { apply (nest3_ext nx (ny+1) nz). faces. }
  rewrite nest3_par. apply par_ext; [|apply nest3_puts]. rewrite nest3_par. apply par_ext; apply nest3_puts.
Qed.
Lemma gzfaces3_ok s : gzfaces3 nx ny nz x y z s = faces_par nx ny (nz+1) DZ s.
Proof.
  transitivity (nest3 nx ny (nz+1) (λ i j k, par (par (λ s, puts s (fnorm DZ i j k)) (λ s, puts s (fcent DZ i j k))) (λ s, puts s (farea DZ i j k))) s).
  { apply (nest3_ext nx ny (nz+1)). faces. }
  rewrite nest3_par. apply par_ext; [|apply nest3_puts]. rewrite nest3_par. apply par_ext; apply nest3_puts.
Qed.
Lemma gnodes3_ok s : gnodes3 nx ny nz x y z s = puts s (flat3 (nx+1) (ny+1) (nz+1) ncoord).
Proof.
  rewrite <- nest3_puts. apply (nest3_ext (nx+1) (ny+1) (nz+1)). intros i j k a Hi Hj Hk.
  rewrite (co_get x i), (co_get y j), (co_get z k) by lia. done.
Qed.
Definition allf {T} (h : dir → nat → nat → nat → list T) : list T :=
  flat3 (nx+1) ny nz (h DX) ++ flat3 nx (ny+1) nz (h DY) ++ flat3 nx ny (nz+1) (h DZ).
Lemma allf_length {T} (h : dir → nat → nat → nat → list T) L : (∀ d i j k, length (h d i j k) = L) → length (allf h) = (nfaces3 nx ny nz * L)%nat.
Proof using. clear Lx Ly Lz.
  intros H. unfold allf, nfaces3. rewrite !app_length, (flat3_length _ _ _ L), (flat3_length _ _ _ L), (flat3_length _ _ _ L) by auto. lia.
Qed.
Lemma allf_lookup {T} (h : dir → nat → nat → nat → list T) L d i j k t : (∀ d i j k, length (h d i j k) = L) →
  face_at nx ny nz d i j k → (t < L)%nat → allf h !! (L * face_no nx ny nz d i j k + t)%nat = h d i j k !! t.
Proof using. clear Lx Ly Lz. intros H Hat Ht. unfold allf. rewrite (faces_lookup nx ny nz L); auto. by destruct d. Qed.
Definition the_geom : geom := Geom (flat3 nx ny nz ccent) (flat3 nx ny nz cvol) (allf fnorm) (allf fcent) (allf farea)
  (flat3 (nx+1) (ny+1) (nz+1) ncoord).
Lemma fnorm_length d i j k : length (fnorm d i j k) = 3%nat. Proof. by destruct d. Qed.
Lemma fcent_length d i j k : length (fcent d i j k) = 3%nat. Proof. by destruct d. Qed.
Lemma farea_length d i j k : length (farea d i j k) = 1%nat. Proof. by destruct d. Qed.
Lemma the_geom_sized : gsized3 nx ny nz the_geom.
Proof using. clear Lx Ly Lz.
  unfold gsized3, the_geom. cbn [g_cc g_cv g_fn g_fc g_fa g_nodes].
  rewrite (allf_length _ 3), (allf_length _ 3), (allf_length _ 1) by (apply fnorm_length || apply fcent_length || apply farea_length).
  rewrite (flat3_length _ _ _ 3), (flat3_length _ _ _ 1), (flat3_length _ _ _ 3) by done. unfold ncells3, nnodes3. split_and!; lia.
Qed.
Lemma geometry3_ok m : gsized3 nx ny nz m → geometry3 nx ny nz x y z m = Some the_geom.
Proof.
  intros (H1 & H2 & H3 & H4 & H5 & H6). pose proof the_geom_sized as (S1 & S2 & S3 & S4 & S5 & S6).
  unfold the_geom in S1, S2, S3, S4, S5, S6. cbn [g_cc g_cv g_fn g_fc g_fa g_nodes] in S1, S2, S3, S4, S5, S6.
  unfold geometry3, the_geom. rewrite gcells3_ok. unfold par at 1. cbn [fst snd].
  rewrite (puts_open (flat3 nx ny nz ccent)) by congruence. cbn [mbind option_bind].
  rewrite (puts_open (flat3 nx ny nz cvol)) by congruence. cbn [mbind option_bind].
  set (s0 := (open (g_fn m), open (g_fc m), open (g_fa m))).
  assert (E : (s ← gxfaces3 nx ny nz x y z s0; s ← gyfaces3 nx ny nz x y z s; gzfaces3 nx ny nz x y z s) =
    Some (Stream (allf fnorm) (length (g_fn m)), Stream (allf fcent) (length (g_fc m)), Stream (allf farea) (length (g_fa m)))).
  { rewrite gxfaces3_ok.
    transitivity (s ← faces_par (nx+1) ny nz DX s0; s ← faces_par nx (ny+1) nz DY s; faces_par nx ny (nz+1) DZ s).
    { destruct (faces_par _ _ _ DX s0) as [s1|]; [|done]. cbn [mbind option_bind]. rewrite gyfaces3_ok.
      destruct (faces_par _ _ _ DY s1) as [s2|]; [|done]. cbn [mbind option_bind]. apply gzfaces3_ok. }
    assert (W : ∀ (a1 a2 a3 b1 b2 b3 c1 c2 c3 : list R) (s : stream R * stream R * stream R),
      (s ← par (par (λ s, puts s a1) (λ s, puts s b1)) (λ s, puts s c1) s;
       s ← par (par (λ s, puts s a2) (λ s, puts s b2)) (λ s, puts s c2) s;
       par (par (λ s, puts s a3) (λ s, puts s b3)) (λ s, puts s c3) s) =
      par (par (λ s, puts s (a1 ++ a2 ++ a3)) (λ s, puts s (b1 ++ b2 ++ b3))) (λ s, puts s (c1 ++ c2 ++ c3)) s).
    { intros a1 a2 a3 b1 b2 b3 c1 c2 c3 s.
      assert (V : ∀ (a2 a3 b2 b3 c2 c3 : list R) (s : stream R * stream R * stream R),
        (s ← par (par (λ s, puts s a2) (λ s, puts s b2)) (λ s, puts s c2) s;
         par (par (λ s, puts s a3) (λ s, puts s b3)) (λ s, puts s c3) s) =
        par (par (λ s, puts s (a2 ++ a3)) (λ s, puts s (b2 ++ b3))) (λ s, puts s (c2 ++ c3)) s).
      { clear. intros a2 a3 b2 b3 c2 c3 s. rewrite par_seq. apply par_ext.
        - rewrite par_seq. apply par_ext; by rewrite puts_app.
        - by rewrite puts_app. }
      transitivity (s ← par (par (λ s, puts s a1) (λ s, puts s b1)) (λ s, puts s c1) s;
        par (par (λ s, puts s (a2 ++ a3)) (λ s, puts s (b2 ++ b3))) (λ s, puts s (c2 ++ c3)) s).
      { destruct (par _ _ s) as [s1|]; [|done]. cbn [mbind option_bind]. apply V. }
      apply V. }
    unfold faces_par. rewrite W. unfold s0. unfold par. cbn [fst snd]. fold (allf fnorm). fold (allf fcent). fold (allf farea).
    rewrite (puts_open (allf fnorm)) by congruence. cbn [mbind option_bind].
    rewrite (puts_open (allf fcent)) by congruence. cbn [mbind option_bind].
    rewrite (puts_open (allf farea)) by congruence. done. }
  destruct (gxfaces3 nx ny nz x y z s0) as [s1|]; [|done]. cbn [mbind option_bind] in E |- *.
  destruct (gyfaces3 nx ny nz x y z s1) as [s2|]; [|done]. cbn [mbind option_bind] in E |- *. rewrite E. cbn [mbind option_bind].
  rewrite gnodes3_ok. rewrite (puts_open (flat3 (nx+1) (ny+1) (nz+1) ncoord)) by congruence. done.
Qed.

(** Values by coordinates. *)
Lemma geom_cc i j k : cell_at nx ny nz i j k → at3 (g_cc the_geom) (cell_no nx ny i j k) (mid x i, mid y j, mid z k).
Proof using. clear Lx Ly Lz. intros (Hi & Hj & Hk). apply slice_pointwise; [done|]. intros t Ht. exact (flat3_lookup nx ny nz 3 ccent ltac:(done) i j k t Hi Hj Hk Ht). Qed.
Lemma geom_cv i j k : cell_at nx ny nz i j k → g_cv the_geom !! cell_no nx ny i j k = Some (gap x i * gap y j * gap z k).
Proof using. clear Lx Ly Lz.
  intros (Hi & Hj & Hk). cbn [the_geom g_cv].
  pose proof (flat3_lookup nx ny nz 1 cvol ltac:(done) i j k 0 Hi Hj Hk ltac:(lia)) as H.
  rewrite Nat.mul_1_l, Nat.add_0_r in H. done.
Qed.
Definition vfn d i j k : vec := match d with DX => (gap y j * gap z k, 0, 0) | DY => (0, gap x i * gap z k, 0) | DZ => (0, 0, gap x i * gap y j) end.
Definition vfc d i j k : vec := match d with DX => (X i, mid y j, mid z k) | DY => (mid x i, Y j, mid z k) | DZ => (mid x i, mid y j, Z k) end.
Definition sfa d i j k : R := match d with DX => gap y j * gap z k | DY => gap x i * gap z k | DZ => gap x i * gap y j end.
Lemma geom_fn d i j k : face_at nx ny nz d i j k → at3 (g_fn the_geom) (face_no nx ny nz d i j k) (vfn d i j k).
Proof using. clear Lx Ly Lz.
  intros H. apply slice_pointwise; [by destruct d|]. intros t Ht. cbn [the_geom g_fn].
  rewrite (allf_lookup fnorm 3); [by destruct d|apply fnorm_length|done|done].
Qed.
Lemma geom_fc d i j k : face_at nx ny nz d i j k → at3 (g_fc the_geom) (face_no nx ny nz d i j k) (vfc d i j k).
Proof using. clear Lx Ly Lz.
  intros H. apply slice_pointwise; [by destruct d|]. intros t Ht. cbn [the_geom g_fc].
  rewrite (allf_lookup fcent 3); [by destruct d|apply fcent_length|done|done].
Qed.
Lemma geom_fa d i j k : face_at nx ny nz d i j k → g_fa the_geom !! face_no nx ny nz d i j k = Some (sfa d i j k).
Proof using. clear Lx Ly Lz.
  intros H. cbn [the_geom g_fa]. pose proof (allf_lookup farea 1 d i j k 0 farea_length H ltac:(lia)) as E.
  rewrite Nat.mul_1_l, Nat.add_0_r in E. rewrite E. by destruct d.
Qed.
Lemma geom_node i j k : node_at nx ny nz i j k → at3 (g_nodes the_geom) (node_no nx ny i j k) (X i, Y j, Z k).
Proof using. clear Lx Ly Lz.
  intros (Hi & Hj & Hk). apply slice_pointwise; [done|]. intros t Ht.
  refine (flat3_lookup (nx+1) (ny+1) (nz+1) 3 ncoord ltac:(done) i j k t _ _ _ Ht); lia.
Qed.
End g3.

(** ** Two dimensions *)
Section g2.
Variables nx ny : nat.
Variables x y : list R.
Hypotheses (Lx : length x = (nx + 1)%nat) (Ly : length y = (ny + 1)%nat).
Notation X := (co x).
Notation Y := (co y).
Definition ccent2 i j : list R := [mid x i; mid y j].
Definition cvol2 i j : list R := [gap x i * gap y j].
Definition fnorm2 (d : bool) i j : list R := if d then [0; gap x i] else [gap y j; 0].
Definition fcent2 (d : bool) i j : list R := if d then [mid x i; Y j] else [X i; mid y j].
Definition farea2 (d : bool) i j : list R := if d then [gap x i] else [gap y j].
Definition ncoord2 i j : list R := [X i; Y j].
Lemma gcells2_ok s : gcells2 nx ny x y s = par (λ s, puts s (flat2 nx ny ccent2)) (λ s, puts s (flat2 nx ny cvol2)) s.
Proof.
  transitivity (nest2 nx ny (λ i j, par (λ s, puts s (ccent2 i j)) (λ s, puts s (cvol2 i j))) s).
  { apply (nest2_ext nx ny). intros i j [a b] Hi Hj.
    rewrite (co_two x i), (co_two y j) by lia. done. }
  rewrite nest2_par. apply par_ext; apply nest2_puts.
Qed.
Ltac faces := intros i j [[a b] c] Hi Hj; rewrite ?(co_two x i), ?(co_two y j) by lia;
  rewrite ?(co_get x i), ?(co_get y j) by lia; unfold par; cbn [fst snd mbind option_bind];
  unfold fnorm2, fcent2, farea2, mid, gap; destruct (puts a _); [|done]; cbn [mbind option_bind]; by destruct (puts b _).
Definition faces_par2 (A B : nat) d (s : stream R * stream R * stream R) :=
  par (par (λ s, puts s (flat2 A B (fnorm2 d))) (λ s, puts s (flat2 A B (fcent2 d)))) (λ s, puts s (flat2 A B (farea2 d))) s.
Lemma gxfaces2_ok s : gxfaces2 nx ny x y s = faces_par2 (nx+1) ny false s.
Proof.
  transitivity (nest2 (nx+1) ny (λ i j, par (par (λ s, puts s (fnorm2 false i j)) (λ s, puts s (fcent2 false i j))) (λ s, puts s (farea2 false i j))) s).
  { apply (nest2_ext (nx+1) ny). faces. }
  rewrite nest2_par. apply par_ext; [|apply nest2_puts]. rewrite nest2_par. apply par_ext; apply nest2_puts.
Qed.
Lemma gyfaces2_ok s : gyfaces2 nx ny x y s = faces_par2 nx (ny+1) true s.
Proof.
  transitivity (nest2 nx (ny+1) (λ i j, par (par (λ s, puts s (fnorm2 true i j)) (λ s, puts s (fcent2 true i j))) (λ s, puts s (farea2 true i j))) s).
  { apply (nest2_ext nx (ny+1)). faces. }
  rewrite nest2_par. apply par_ext; [|apply nest2_puts]. rewrite nest2_par. apply par_ext; apply nest2_puts.
Qed.
Lemma gnodes2_ok s : gnodes2 nx ny x y s = puts s (flat2 (nx+1) (ny+1) ncoord2).
Proof.
  rewrite <- nest2_puts. apply (nest2_ext (nx+1) (ny+1)). intros i j a Hi Hj.
  rewrite (co_get x i), (co_get y j) by lia. done.
Qed.
Definition allf2 {T} (h : bool → nat → nat → list T) : list T := flat2 (nx+1) ny (h false) ++ flat2 nx (ny+1) (h true).
Lemma allf2_length {T} (h : bool → nat → nat → list T) L : (∀ d i j, length (h d i j) = L) → length (allf2 h) = (nfaces2 nx ny * L)%nat.
Proof using. clear Lx Ly. intros H. unfold allf2, nfaces2. rewrite app_length, (flat2_length _ _ L), (flat2_length _ _ L) by auto. lia. Qed.
Lemma allf2_lookup {T} (h : bool → nat → nat → list T) L d i j t : (∀ d i j, length (h d i j) = L) →
  face2_at nx ny d i j → (t < L)%nat → allf2 h !! (L * face2_no nx ny d i j + t)%nat = h d i j !! t.
Proof using. clear Lx Ly. intros H Hat Ht. unfold allf2. rewrite (faces2_lookup nx ny L); auto. by destruct d. Qed.
Definition the_geom2 : geom := Geom (flat2 nx ny ccent2) (flat2 nx ny cvol2) (allf2 fnorm2) (allf2 fcent2) (allf2 farea2)
  (flat2 (nx+1) (ny+1) ncoord2).
Lemma fnorm2_length d i j : length (fnorm2 d i j) = 2%nat. Proof. by destruct d. Qed.
Lemma fcent2_length d i j : length (fcent2 d i j) = 2%nat. Proof. by destruct d. Qed.
Lemma farea2_length d i j : length (farea2 d i j) = 1%nat. Proof. by destruct d. Qed.
Lemma the_geom2_sized : gsized2 nx ny the_geom2.
Proof using. clear Lx Ly.
  unfold gsized2, the_geom2. cbn [g_cc g_cv g_fn g_fc g_fa g_nodes].
  rewrite (allf2_length _ 2), (allf2_length _ 2), (allf2_length _ 1) by (apply fnorm2_length || apply fcent2_length || apply farea2_length).
  rewrite (flat2_length _ _ 2), (flat2_length _ _ 1), (flat2_length _ _ 2) by done. unfold ncells2, nnodes2. split_and!; lia.
Qed.
Lemma geometry2_ok m : gsized2 nx ny m → geometry2 nx ny x y m = Some the_geom2.
Proof.
  intros (H1 & H2 & H3 & H4 & H5 & H6). pose proof the_geom2_sized as (S1 & S2 & S3 & S4 & S5 & S6).
  unfold the_geom2 in S1, S2, S3, S4, S5, S6. cbn [g_cc g_cv g_fn g_fc g_fa g_nodes] in S1, S2, S3, S4, S5, S6.
  unfold geometry2, the_geom2. rewrite gcells2_ok. unfold par at 1. cbn [fst snd].
  rewrite (puts_open (flat2 nx ny ccent2)) by congruence. cbn [mbind option_bind].
  rewrite (puts_open (flat2 nx ny cvol2)) by congruence. cbn [mbind option_bind].
  set (s0 := (open (g_fn m), open (g_fc m), open (g_fa m))).
  assert (E : (s ← gxfaces2 nx ny x y s0; gyfaces2 nx ny x y s) =
    Some (Stream (allf2 fnorm2) (length (g_fn m)), Stream (allf2 fcent2) (length (g_fc m)), Stream (allf2 farea2) (length (g_fa m)))).
  { rewrite gxfaces2_ok.
    transitivity (s ← faces_par2 (nx+1) ny false s0; faces_par2 nx (ny+1) true s).
    { destruct (faces_par2 _ _ false s0) as [s1|]; [|done]. cbn [mbind option_bind]. apply gyfaces2_ok. }
    unfold faces_par2. rewrite par_seq. unfold par at 1. unfold s0. cbn [fst snd].
    assert (E1 : ∀ (a a' b b' : list R) (s : stream R * stream R), (s ← par (λ s, puts s a) (λ s, puts s b) s; par (λ s, puts s a') (λ s, puts s b') s)
      = par (λ s, puts s (a ++ a')) (λ s, puts s (b ++ b')) s).
    { clear. intros a a' b b' s. rewrite par_seq. apply par_ext; by rewrite puts_app. }
    rewrite E1. unfold par. cbn [fst snd]. fold (allf2 fnorm2). fold (allf2 fcent2).
    rewrite (puts_open (allf2 fnorm2)) by congruence. cbn [mbind option_bind].
    rewrite (puts_open (allf2 fcent2)) by congruence. cbn [mbind option_bind].
    assert (E2 : ∀ s : stream R, (s ← puts s (flat2 (nx+1) ny (farea2 false)); puts s (flat2 nx (ny+1) (farea2 true))) = puts s (allf2 farea2)).
    { intros s. unfold allf2. by rewrite puts_app. }
    rewrite E2. rewrite (puts_open (allf2 farea2)) by congruence. done. }
  destruct (gxfaces2 nx ny x y s0) as [s1|]; [|done]. cbn [mbind option_bind] in E |- *. rewrite E. cbn [mbind option_bind].
  rewrite gnodes2_ok. rewrite (puts_open (flat2 (nx+1) (ny+1) ncoord2)) by congruence. done.
Qed.
Lemma geom2_cc i j : cell2_at nx ny i j → at2 (g_cc the_geom2) (cell2_no nx i j) (mid x i, mid y j).
Proof using. clear Lx Ly. intros (Hi & Hj). apply slice_pointwise; [done|]. intros t Ht. exact (flat2_lookup nx ny 2 ccent2 ltac:(done) i j t Hi Hj Ht). Qed.
Lemma geom2_cv i j : cell2_at nx ny i j → g_cv the_geom2 !! cell2_no nx i j = Some (gap x i * gap y j).
Proof using. clear Lx Ly.
  intros (Hi & Hj). cbn [the_geom2 g_cv].
  pose proof (flat2_lookup nx ny 1 cvol2 ltac:(done) i j 0 Hi Hj ltac:(lia)) as H.
  rewrite Nat.mul_1_l, Nat.add_0_r in H. done.
Qed.
Definition vfn2 (d : bool) i j : vec2 := if d then (0, gap x i) else (gap y j, 0).
Definition vfc2 (d : bool) i j : vec2 := if d then (mid x i, Y j) else (X i, mid y j).
Definition sfa2 (d : bool) i j : R := if d then gap x i else gap y j.
Lemma geom2_fn d i j : face2_at nx ny d i j → at2 (g_fn the_geom2) (face2_no nx ny d i j) (vfn2 d i j).
Proof using. clear Lx Ly.
  intros H. apply slice_pointwise; [by destruct d|]. intros t Ht. cbn [the_geom2 g_fn].
  rewrite (allf2_lookup fnorm2 2); [by destruct d|apply fnorm2_length|done|done].
Qed.
Lemma geom2_fc d i j : face2_at nx ny d i j → at2 (g_fc the_geom2) (face2_no nx ny d i j) (vfc2 d i j).
Proof using. clear Lx Ly.
  intros H. apply slice_pointwise; [by destruct d|]. intros t Ht. cbn [the_geom2 g_fc].
  rewrite (allf2_lookup fcent2 2); [by destruct d|apply fcent2_length|done|done].
Qed.
Lemma geom2_fa d i j : face2_at nx ny d i j → g_fa the_geom2 !! face2_no nx ny d i j = Some (sfa2 d i j).
Proof using. clear Lx Ly.
  intros H. cbn [the_geom2 g_fa]. pose proof (allf2_lookup farea2 1 d i j 0 farea2_length H ltac:(lia)) as E.
  rewrite Nat.mul_1_l, Nat.add_0_r in E. rewrite E. by destruct d.
Qed.
Lemma geom2_node i j : node2_at nx ny i j → at2 (g_nodes the_geom2) (node2_no nx i j) (X i, Y j).
Proof using. clear Lx Ly. intros (Hi & Hj). apply slice_pointwise; [done|]. intros t Ht. refine (flat2_lookup (nx+1) (ny+1) 2 ncoord2 ltac:(done) i j t _ _ Ht); lia. Qed.
End g2.

(** Sums. *)
Definition lsum (l : list R) : R := foldr Rplus 0 l.
Lemma lsum_app l l' : lsum (l ++ l') = lsum l + lsum l'.
Proof. induction l as [|a l IH]; simpl; [unfold lsum; simpl; lra|]. unfold lsum in *. simpl. rewrite IH. lra. Qed.
Lemma flat_S {T} n (ch : nat → list T) : flat (S n) ch = flat n ch ++ ch n.
Proof. unfold flat. rewrite seq_S, map_app, concat_app. simpl. by rewrite app_nil_r. Qed.
Lemma lsum_flat n (ch : nat → list R) x c : (∀ i, (i < n)%nat → lsum (ch i) = gap x i * c) → lsum (flat n ch) = (co x n - co x 0) * c.
Proof.
  induction n as [|n IH]; intros H.
  - unfold flat, lsum. simpl. lra.
  - rewrite flat_S, lsum_app, IH by (intros; apply H; lia). rewrite H by lia. unfold gap.
    replace (n + 1)%nat with (S n) by lia. lra.
Qed.
Lemma volume3 nx ny nz x y z :
  lsum (flat3 nx ny nz (cvol x y z)) = (co x nx - co x 0) * (co y ny - co y 0) * (co z nz - co z 0).
Proof.
  unfold flat3. rewrite (lsum_flat nz _ z ((co x nx - co x 0) * (co y ny - co y 0))); [lra|]. intros k Hk.
  rewrite (lsum_flat ny _ y ((co x nx - co x 0) * gap z k)); [lra|]. intros j Hj.
  rewrite (lsum_flat nx _ x (gap y j * gap z k)); [lra|]. intros i Hi. unfold cvol, lsum. simpl. lra.
Qed.
Lemma volume2 nx ny x y : lsum (flat2 nx ny (cvol2 x y)) = (co x nx - co x 0) * (co y ny - co y 0).
Proof.
  unfold flat2. rewrite (lsum_flat ny _ y ((co x nx - co x 0))); [lra|]. intros j Hj.
  rewrite (lsum_flat nx _ x (gap y j)); [lra|]. intros i Hi. unfold cvol2, lsum. simpl. lra.
Qed.
