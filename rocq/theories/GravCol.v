(** The Gauss-Seidel passes over a column. *)
From Coq Require Import Reals Lra Psatz.
From Verif Require Import Base GridModel LoopModel LoopProof TableModel RootModel RootProps
  TwoModel TwoSpec TwoProof GravModel GravSpec GravProof.
Unset Default Proof Using.
Local Open Scope R_scope.
Notation gval := (R * (R * R) * Z)%type.

Section col.
Context (nc : nat) (pv : list R) (dt : R) (kr : nat → R → R → R * R) (visc_w visc_o : R) (smin smax : list R) (tol : R) (maxit : Z).
Context (HS : segregation_ok nc kr visc_w visc_o smin smax) (Hpv : length pv = nc) (Hpos : ∀ c p, pv !! c = Some p → 0 < p)
  (Hdt : 0 <= dt) (Htol : 0 <= tol).
Context (cells : list nat) (HC : ∀ c, c ∈ cells → (c < nc)%nat) (Hnd : NoDup cells).
Context (cg : list R) (Hcg : length cg = (length cells - 1)%nat).
Notation mob := (mobilities kr visc_w visc_o).
Notation clen := (length cells).

Lemma mobility_eq c s : mobility kr visc_w visc_o c s = mob c s.
Proof. unfold mobility, mobilities. by destruct (kr c s (1 - s)). Qed.

Definition in_range (c : nat) (s : R) : Prop := ∀ lo hi, smin !! c = Some lo → smax !! c = Some hi → lo <= s <= hi.
Definition gcell (x : list gval) (c : nat) : Prop := ∃ s it, x !! c = Some (s, mob c s, it) ∧ in_range c s.
Definition satg (x : list gval) (c : nat) : R := default 0 ((λ v : gval, v.1.1) <$> x !! c).
Definition cellp (j : nat) : nat := default 0%nat (cells !! j).
Definition G (i : nat) : R := default 0 (cg !! i).
Definition imb (snap : nat → R) (i : nat) (s0 : R) : R → R :=
  column_imbalance clen G (λ j, mob (cellp j) (snap (cellp j))) i (dt / default 0 (pv !! cellp i)) s0 (mob (cellp i)).
Definition next_to (j u : nat) : Prop := u = S j ∨ S u = j.

Lemma mob_range c s : (c < nc)%nat → in_range c s → 0 <= (mob c s).1 ∧ 0 <= (mob c s).2.
Proof using HS. clear Hpos Hdt Htol Hpv Hcg HC Hnd.
  intros Hc Hs. destruct HS as [Hw Ho Hmin Hmax Hcell].
  destruct (lookup_lt_is_Some_2 smin c) as [lo El]; [lia|]. destruct (lookup_lt_is_Some_2 smax c) as [hi Eh]; [lia|].
  destruct (Hcell c lo hi El Eh) as (_ & _ & _ & _ & H). destruct (H s (Hs _ _ El Eh)) as [H1 H2].
  assert (0 < / visc_w) by (by apply Rinv_0_lt_compat). assert (0 < / visc_o) by (by apply Rinv_0_lt_compat).
  unfold mobilities, Rdiv. cbn [fst snd]. split; clear - H1 H2 H0 H3; nra.
Qed.
Lemma gcell_sat x c : gcell x c → in_range c (satg x c).
Proof. intros (s & it & E & H). unfold satg. by rewrite E. Qed.

(** The equation of a cell has the right signs at the ends of its range. *)
Lemma imb_ends snap i c p lo hi s0 : cells !! i = Some c → pv !! c = Some p → smin !! c = Some lo → smax !! c = Some hi → lo <= s0 <= hi →
  (∀ j d, cells !! j = Some d → next_to i j → in_range d (snap d)) →
  imb snap i s0 lo <= 0 ∧ 0 <= imb snap i s0 hi.
Proof using HS Hpos Hdt HC. clear Hpv Hcg Htol Hnd.
  intros Hi Hp Hlo Hhi Hs0 Hn. assert (Ec : cellp i = c) by (unfold cellp; by rewrite Hi). unfold imb, column_imbalance. rewrite Ec.
  rewrite Hp. cbn [default from_option]. unfold Datatypes.id. pose proof (Hpos c p Hp) as Hp0.
  assert (Hdp : 0 <= dt / p). { unfold Rdiv. assert (0 < / p) by (by apply Rinv_0_lt_compat). clear - H Hdt. nra. }
  destruct HS as [Hw Ho Hmin Hmax Hcell]. destruct (Hcell c lo hi Hlo Hhi) as (Hlh & Hh1 & E1 & E2 & Hb).
  assert (Hc : (c < nc)%nat) by (rewrite <- Hmin; by eapply lookup_lt_Some).
  assert (Rlo : in_range c lo). { intros l' h' ? ?. simplify_eq. lra. }
  assert (Rhi : in_range c hi). { intros l' h' ? ?. simplify_eq. lra. }
  destruct (mob_range c lo Hc Rlo) as [_ Hl2]. destruct (mob_range c hi Hc Rhi) as [Hh1' _].
  assert (El1 : (mob c lo).1 = 0). { unfold mobilities. cbn [fst]. rewrite E1. unfold Rdiv. lra. }
  assert (Eh2 : (mob c hi).2 = 0). { unfold mobilities. cbn [snd]. rewrite E2. unfold Rdiv. lra. }
  assert (Hnb : ∀ j, next_to i j → (j < clen)%nat → 0 <= (mob (cellp j) (snap (cellp j))).1 ∧ 0 <= (mob (cellp j) (snap (cellp j))).2).
  { intros j Hj Hjn. unfold cellp. destruct (lookup_lt_is_Some_2 cells j Hjn) as [d Hd]. rewrite Hd. cbn [default from_option]. unfold Datatypes.id.
    apply mob_range; [apply HC; by eapply elem_of_list_lookup_2|]. by eapply Hn. }
  pose proof (lookup_lt_Some _ _ _ Hi) as Hin.
  split.
  - assert (A1 : 0 <= if decide (0 < i)%nat then segregate (- G (i - 1)) (mob c lo) (mob (cellp (i - 1)) (snap (cellp (i - 1)))) else 0).
    { destruct (decide (0 < i)%nat); [|apply Rle_refl]. apply segregate_dry; [done|done|]. apply Hnb; [right; lia|lia]. }
    assert (A2 : 0 <= if decide (S i < clen)%nat then segregate (G i) (mob c lo) (mob (cellp (S i)) (snap (cellp (S i)))) else 0).
    { destruct (decide (S i < clen)%nat); [|apply Rle_refl]. apply segregate_dry; [done|done|]. apply Hnb; [by left|lia]. }
    revert A1 A2. generalize (if decide (0 < i)%nat then segregate (- G (i - 1)) (mob c lo) (mob (cellp (i - 1)) (snap (cellp (i - 1)))) else 0).
    generalize (if decide (S i < clen)%nat then segregate (G i) (mob c lo) (mob (cellp (S i)) (snap (cellp (S i)))) else 0).
    intros X Y A1 A2. clear - A1 A2 Hdp Hs0. nra.
  - assert (A1 : (if decide (0 < i)%nat then segregate (- G (i - 1)) (mob c hi) (mob (cellp (i - 1)) (snap (cellp (i - 1)))) else 0) <= 0).
    { destruct (decide (0 < i)%nat); [|apply Rle_refl]. apply segregate_full; [done|done|]. apply Hnb; [right; lia|lia]. }
    assert (A2 : (if decide (S i < clen)%nat then segregate (G i) (mob c hi) (mob (cellp (S i)) (snap (cellp (S i)))) else 0) <= 0).
    { destruct (decide (S i < clen)%nat); [|apply Rle_refl]. apply segregate_full; [done|done|]. apply Hnb; [by left|lia]. }
    revert A1 A2. generalize (if decide (0 < i)%nat then segregate (- G (i - 1)) (mob c hi) (mob (cellp (i - 1)) (snap (cellp (i - 1)))) else 0).
    generalize (if decide (S i < clen)%nat then segregate (G i) (mob c hi) (mob (cellp (S i)) (snap (cellp (S i)))) else 0).
    intros X Y A1 A2. clear - A1 A2 Hdp Hs0. nra.
Qed.

Lemma make_grav_ok x i c s0 m it p : cells !! i = Some c → x !! c = Some (s0, m, it) → pv !! c = Some p →
  (∀ j d, cells !! j = Some d → next_to i j → gcell x d) →
  ∃ r, make_grav pv dt cells i cg x = Some r ∧ ∀ s, grav_at kr visc_w visc_o r s = imb (satg x) i s0 s.
Proof using HS Hpos Hdt HC Hcg. clear Hpv Htol Hnd.
  intros Hi Hx Hp Hn. pose proof (Hpos c p Hp) as Hp0. unfold make_grav. rewrite Hi. cbn [mbind option_bind].
  pose proof (lookup_lt_Some _ _ _ Hi) as Hin.
  assert (Hnb : ∀ j, next_to i j → (j < clen)%nat → ∃ it, x !! cellp j = Some (satg x (cellp j), mob (cellp j) (satg x (cellp j)), it)).
  { intros j Hj Hjn. destruct (lookup_lt_is_Some_2 cells j Hjn) as [d Hd]. destruct (Hn j d Hd Hj) as (s & it' & E & _).
    exists it'. unfold cellp, satg. rewrite Hd. cbn [default from_option]. unfold Datatypes.id. by rewrite E. }
  assert (Hcell : ∀ j, (j < clen)%nat → cells !! j = Some (cellp j)).
  { intros j Hj. unfold cellp. destruct (lookup_lt_is_Some_2 cells j Hj) as [d ->]. done. }
  assert (HG : ∀ j, (S j < clen)%nat → cg !! j = Some (G j)).
  { intros j Hj. unfold G. destruct (lookup_lt_is_Some_2 cg j) as [d ->]; [lia|done]. }
  assert (Hrd : rdiv dt p = Some (dt / p)). { unfold rdiv. destruct (Req_EM_T p 0); [lra|done]. }
  assert (A : (if decide (0 < i)%nat then n' ← cells !! (i - 1)%nat; f ← cg !! (i - 1)%nat; '(_, m, _) ← x !! n'; Some [(- f, m)] else Some [])
     = Some (if decide (0 < i)%nat then [(- G (i - 1)%nat, mob (cellp (i - 1)) (satg x (cellp (i - 1))))] else [])).
  { destruct (decide (0 < i)%nat); [|done]. rewrite Hcell by lia. cbn [mbind option_bind]. rewrite HG by lia. cbn [mbind option_bind].
    destruct (Hnb (i - 1)%nat) as [it' ->]; [right; lia|lia|]. done. }
  assert (B : (if decide (i < clen - 1)%nat then n' ← cells !! (i + 1)%nat; f ← cg !! i; '(_, m, _) ← x !! n'; Some [(f, m)] else Some [])
     = Some (if decide (S i < clen)%nat then [(G i, mob (cellp (S i)) (satg x (cellp (S i))))] else [])).
  { destruct (decide (i < clen - 1)%nat), (decide (S i < clen)%nat); try lia; [|done]. replace (i + 1)%nat with (S i) by lia.
    rewrite Hcell by lia. cbn [mbind option_bind]. rewrite HG by lia. cbn [mbind option_bind].
    destruct (Hnb (S i)) as [it' ->]; [by left|lia|]. done. }
  rewrite A. cbn [mbind option_bind]. rewrite B. cbn [mbind option_bind]. rewrite Hx. cbn [mbind option_bind]. rewrite Hp. cbn [mbind option_bind].
  rewrite Hrd. cbn [mbind option_bind]. eexists. split; [reflexivity|]. intros s. unfold grav_at. cbn [gr_dtpv gr_cell gr_s0 gr_nb].
  unfold imb, column_imbalance. replace (cellp i) with c by (unfold cellp; by rewrite Hi). rewrite Hp. cbn [default from_option]. unfold Datatypes.id.
  rewrite mobility_eq. destruct (decide (0 < i)%nat), (decide (S i < clen)%nat); cbn [app foldl]; rewrite ?grav_term_eq; cbn [fst snd]; lra.
Qed.

Lemma grav_single_ok x i c s0 m it : cells !! i = Some c → length x = nc → x !! c = Some (s0, m, it) → in_range c s0 →
  (∀ j d, cells !! j = Some d → next_to i j → gcell x d) →
  ∃ s it', grav_single pv dt kr visc_w visc_o smin smax tol maxit cells i cg x = Some (<[c:=(s, mob c s, it')]> x) ∧ in_range c s ∧
    ∀ lo hi, smin !! c = Some lo → smax !! c = Some hi → segregated tol maxit (imb (satg x) i s0) lo hi s0 s.
Proof using HS Hpos Hdt HC Hcg Htol Hpv. clear Hnd.
  intros Hi Hlx Hx Hs0 Hn. unfold grav_single. rewrite Hi. cbn [mbind option_bind].
  assert (Hc : (c < nc)%nat) by (apply HC; by eapply elem_of_list_lookup_2).
  destruct (lookup_lt_is_Some_2 pv c) as [p Hp]; [lia|].
  destruct (lookup_lt_is_Some_2 smin c) as [lo El]; [rewrite (sg_min _ _ _ _ _ _ HS); lia|].
  destruct (lookup_lt_is_Some_2 smax c) as [hi Eh]; [rewrite (sg_max _ _ _ _ _ _ HS); lia|].
  destruct (make_grav_ok x i c s0 m it p Hi Hx Hp Hn) as (r & Er & Heq). rewrite Er. cbn [mbind option_bind]. rewrite Hx. cbn [mbind option_bind].
  rewrite El, Eh. cbn [mbind option_bind].
  destruct (sg_cell _ _ _ _ _ _ HS c lo hi El Eh) as (Hlh & Hh1 & _).
  specialize (Hs0 lo hi El Eh).
  destruct (imb_ends (satg x) i c p lo hi s0 Hi Hp El Eh Hs0) as [H0 H1]. { intros j d Hd Hj. apply gcell_sat. by eapply Hn. }
  assert (Hclamp : ∀ s, lo <= s <= hi → Rmin (Rmax s lo) hi = s). { intros s Hs. rewrite Rmax_left by lra. apply Rmin_left. lra. }
  destruct (Rlt_dec tol (Rabs (grav_at kr visc_w visc_o r s0))) as [Hbig|Hsmall].
  - destruct (weak_solve (grav_at kr visc_w visc_o r) lo hi tol maxit Htol Hlh Hh1) as (res & iu & hs & es & s & E & Es & Hs & Hset).
    { by rewrite Heq. } { by rewrite Heq. }
    rewrite E. cbn [mbind option_bind]. rewrite Es. cbn [mbind option_bind]. rewrite (Hclamp s Hs).
    rewrite upd_Some by lia. rewrite mobility_eq. eexists s, _. split; [reflexivity|]. split.
    + intros l' h' ? ?. by simplify_eq.
    + intros l' h' ? ?. simplify_eq. right. eapply settled_ext; [|exact Hset]. done.
  - cbn [mbind option_bind]. rewrite (Hclamp s0 Hs0). rewrite upd_Some by lia. rewrite mobility_eq. eexists s0, _. split; [reflexivity|]. split.
    + intros l' h' ? ?. by simplify_eq.
    + intros l' h' ? ?. simplify_eq. left. split; [done|]. rewrite <- Heq. lra.
Qed.

(** ** Passes *)
Context (xin : list gval) (Hxin : length xin = nc) (Hin : ∀ c, c ∈ cells → in_range c (satg xin c)).
Context (s0s : list R) (Hs0s : ∀ j c, cells !! j = Some c → s0s !! j = Some (satg xin c)).


Lemma grav_from_ok x i c : cells !! i = Some c → length x = nc → (∀ d, d ∈ cells → gcell x d) →
  ∃ s it', grav_from pv dt kr visc_w visc_o smin smax tol maxit cells cg s0s i x = Some (<[c:=(s, mob c s, it')]> x) ∧ in_range c s ∧
    ∀ lo hi, smin !! c = Some lo → smax !! c = Some hi → segregated tol maxit (imb (satg (<[c:=(s, mob c s, it')]> x)) i (satg xin c)) lo hi (satg xin c) s.
Proof using All.
  intros Hi Hlx Hgood. assert (HcC : c ∈ cells) by (by eapply elem_of_list_lookup_2). pose proof (HC c HcC) as Hc.
  unfold grav_from. rewrite Hi. cbn [mbind option_bind]. rewrite (Hs0s i c Hi). cbn [mbind option_bind].
  destruct (Hgood c HcC) as (s1 & it & Ex & _). rewrite Ex. cbn [mbind option_bind]. rewrite upd_Some by lia. cbn [mbind option_bind].
  set (x1 := <[c:=(satg xin c, mob c s1, it)]> x).
  assert (Hne : ∀ j d, cells !! j = Some d → next_to i j → d ≠ c).
  { intros j d Hd Hj ->. assert (i = j) as <- by (by eapply NoDup_lookup). unfold next_to in Hj. lia. }
  destruct (grav_single_ok x1 i c (satg xin c) (mob c s1) it) as (s & it' & E & Hr & Hseg); try done.
  { unfold x1. by rewrite insert_length. } { unfold x1. apply list_lookup_insert. lia. } { by apply Hin. }
  { intros j d Hd Hj. destruct (Hgood d) as (s' & it'' & E' & H'); [by eapply elem_of_list_lookup_2|]. exists s', it''. split; [|done].
    unfold x1. rewrite list_lookup_insert_ne; [done|]. apply not_eq_sym. by eapply Hne. }
  exists s, it'. rewrite E. unfold x1 at 1. rewrite list_insert_insert. split; [done|]. split; [done|]. intros lo hi El Eh.
  assert (Ei : ∀ y, imb (satg x1) i (satg xin c) y = imb (satg (<[c:=(s, mob c s, it')]> x)) i (satg xin c) y).
  { intros y. assert (Hd : ∀ j, next_to i j → (j < clen)%nat → satg x1 (cellp j) = satg (<[c:=(s, mob c s, it')]> x) (cellp j)).
    { intros j Hj Hjn. destruct (lookup_lt_is_Some_2 cells j Hjn) as [d Hd]. unfold cellp. rewrite Hd. cbn [default from_option]. unfold Datatypes.id.
      pose proof (Hne j d Hd Hj). unfold satg, x1. by rewrite !list_lookup_insert_ne. }
    unfold imb, column_imbalance. pose proof (lookup_lt_Some _ _ _ Hi).
    destruct (decide (0 < i)%nat); [rewrite (Hd (i - 1)%nat) by (first [right; lia|lia])|]; (destruct (decide (S i < clen)%nat); [rewrite (Hd (S i)) by (first [by left|lia])|]); done. }
  destruct (Hseg lo hi El Eh) as [[H1 H2]|H].
  - left. split; [done|]. by rewrite <- Ei.
  - right. eapply settled_ext; [exact Ei|done].
Qed.

Definition seen (t u : nat) : R := (if decide (u < t)%nat then 1 else 0) + (if decide (clen - u - 1 < t)%nat then 1 else 0).
Definition satp (x : list gval) (j : nat) : R := satg x (cellp j).

(** Position [j] was solved for saturations near the present ones. *)
Definition solved (B : nat → R) (x : list gval) (j : nat) : Prop :=
  ∃ snap, (∀ u d, cells !! u = Some d → next_to j u → in_range d (snap d) ∧ Rabs (snap d - satg x d) <= B u) ∧
    ∀ c lo hi, cells !! j = Some c → smin !! c = Some lo → smax !! c = Some hi →
      segregated tol maxit (imb snap j (satg xin c)) lo hi (satg xin c) (satg x c).

Record ginv (t : nat) (M : R) (x : list gval) : Prop := {
  gi_len : length x = nc;
  gi_out : ∀ u, u ∉ cells → x !! u = xin !! u;
  gi_good : ∀ c, c ∈ cells → gcell x c;
  gi_M : 0 <= M;
  gi_eq : ∀ j, (j < clen)%nat → (j < t ∨ clen - j - 1 < t)%nat → solved (λ u, seen t u * M) x j }.

Lemma seen_nonneg t u : 0 <= seen t u.
Proof. unfold seen. destruct (decide _), (decide _); lra. Qed.
Lemma seen_mono t u : seen t u <= seen (S t) u.
Proof. unfold seen. repeat destruct (decide _); try lra; try lia. Qed.
Lemma seen_step t u : (t < clen)%nat → (u < clen)%nat → u = t ∨ u = (clen - t - 1)%nat → seen t u + 1 <= seen (S t) u.
Proof. clear. intros Ht Hu H. unfold seen. repeat destruct (decide _); try lra; try lia. Qed.

Lemma body_ok t M x : (t < clen)%nat → ginv t M x →
  ∃ M' x', grav_body pv dt kr visc_w visc_o smin smax tol maxit cells cg s0s t (M, x) = Some (M', x') ∧ ginv (S t) M' x'.
Proof using All.
  intros Ht [Hl Ho Hgd HM Heq]. unfold grav_body. set (b := (clen - t - 1)%nat).
  destruct (lookup_lt_is_Some_2 cells t Ht) as [ca Ea]. destruct (lookup_lt_is_Some_2 cells b) as [cb Eb]; [unfold b; lia|].
  assert (HcaC : ca ∈ cells) by (by eapply elem_of_list_lookup_2). assert (HcbC : cb ∈ cells) by (by eapply elem_of_list_lookup_2).
  assert (Hsat : ∀ x j c, cells !! j = Some c → gcell x c → sat_at cells j x = Some (satg x c)).
  { intros y j c Hj (s & it & E & _). unfold sat_at, satg. rewrite Hj. cbn [mbind option_bind]. by rewrite E. }
  rewrite (Hsat x t ca Ea (Hgd _ HcaC)), (Hsat x b cb Eb (Hgd _ HcbC)). cbn [mbind option_bind].
  destruct (grav_from_ok x t ca Ea Hl Hgd) as (sa & ita & E1 & Hra & Hsa). rewrite E1. cbn [mbind option_bind].
  set (x1 := <[ca:=(sa, mob ca sa, ita)]> x) in *.
  assert (Hl1 : length x1 = nc) by (unfold x1; by rewrite insert_length).
  assert (Hgd1 : ∀ d, d ∈ cells → gcell x1 d).
  { intros d Hd. destruct (decide (d = ca)) as [->|Hne].
    - exists sa, ita. unfold x1. rewrite list_lookup_insert by (rewrite Hl; by apply HC). done.
    - destruct (Hgd d Hd) as (s & it & E & H). exists s, it. unfold x1. by rewrite list_lookup_insert_ne. }
  destruct (grav_from_ok x1 b cb Eb Hl1 Hgd1) as (sb & itb & E2 & Hrb & Hsb). rewrite E2. cbn [mbind option_bind].
  set (x2 := <[cb:=(sb, mob cb sb, itb)]> x1) in *.
  assert (Hl2 : length x2 = nc) by (unfold x2; by rewrite insert_length).
  assert (Hgd2 : ∀ d, d ∈ cells → gcell x2 d).
  { intros d Hd. destruct (decide (d = cb)) as [->|Hne].
    - exists sb, itb. unfold x2. rewrite list_lookup_insert by (rewrite Hl1; by apply HC). done.
    - destruct (Hgd1 d Hd) as (s & it & E & H). exists s, it. unfold x2. by rewrite list_lookup_insert_ne. }
  rewrite (Hsat x2 t ca Ea (Hgd2 _ HcaC)), (Hsat x2 b cb Eb (Hgd2 _ HcbC)). cbn [mbind option_bind].
  set (M' := Rmax M (Rmax (Rabs (satg x2 ca - satg x ca)) (Rabs (satg x2 cb - satg x cb)))).
  assert (HM1 : M <= M') by apply Rmax_l.
  assert (HMa : Rabs (satg x2 ca - satg x ca) <= M'). { eapply Rle_trans; [apply Rmax_l|]. apply Rmax_r. }
  assert (HMb : Rabs (satg x2 cb - satg x cb) <= M'). { eapply Rle_trans; [apply Rmax_r|]. apply Rmax_r. }
  exists M', x2. split; [done|].
  assert (Hsame : ∀ d, d ≠ ca → d ≠ cb → satg x2 d = satg x d).
  { intros d H1 H2. unfold satg, x2, x1. by rewrite !list_lookup_insert_ne by done. }
  split; [done| |done|lra|].
  { intros u Hu. unfold x2, x1. rewrite !list_lookup_insert_ne by (intros ->; done). by apply Ho. }
  assert (Hpos_inj : ∀ i j c, cells !! i = Some c → cells !! j = Some c → i = j) by (intros; by eapply NoDup_lookup).
  intros j Hj Hjt.
  destruct (lookup_lt_is_Some_2 cells j Hj) as [c Ec].
  destruct (decide (j = b)) as [->|Hjb].
  { (* the one solved last *)
    assert (c = cb) as -> by congruence. exists (satg x2). split.
    - intros u d Hd Hu. split; [apply gcell_sat, Hgd2; by eapply elem_of_list_lookup_2|].
      rewrite Rminus_eq_0, Rabs_R0. apply Rmult_le_pos; [apply seen_nonneg|lra].
    - intros c' lo hi Hc' Hlo Hhi. assert (c' = cb) as -> by congruence.
      assert (satg x2 cb = sb) as ->. { unfold satg, x2. rewrite list_lookup_insert by (rewrite Hl1; by apply HC). done. }
      by apply Hsb. }
  destruct (decide (j = t)) as [->|Hjt'].
  { assert (c = ca) as -> by congruence. assert (Hab : ca ≠ cb). { intros ->. apply Hjb. by eapply Hpos_inj. }
    exists (satg x1). split.
    - intros u d Hd Hu. split; [apply gcell_sat, Hgd1; by eapply elem_of_list_lookup_2|].
      assert (d ≠ ca). { intros ->. assert (u = t) as -> by (by eapply Hpos_inj). unfold next_to in Hu. lia. }
      destruct (decide (d = cb)) as [->|Hdb].
      + assert (u = b) as -> by (by eapply Hpos_inj). replace (satg x1 cb) with (satg x cb) by (unfold satg, x1; by rewrite list_lookup_insert_ne).
        rewrite Rabs_minus_sym. pose proof (seen_step t b Ht ltac:(unfold b; lia) ltac:(by right)). pose proof (seen_nonneg t b).
        eapply Rle_trans; [exact HMb|]. clear - H0 H1 HM HM1. nra.
      + replace (satg x2 d) with (satg x1 d). { rewrite Rminus_eq_0, Rabs_R0. apply Rmult_le_pos; [apply seen_nonneg|lra]. }
        unfold satg, x2. by rewrite list_lookup_insert_ne.
    - intros c' lo hi Hc' Hlo Hhi. assert (c' = ca) as -> by congruence.
      assert (satg x2 ca = sa) as ->. { unfold satg, x2. rewrite list_lookup_insert_ne by done. unfold x1. rewrite list_lookup_insert by (rewrite Hl; by apply HC). done. }
      by apply Hsa. }
  (* solved before *)
  assert (Hca : c ≠ ca). { intros ->. apply Hjt'. by eapply Hpos_inj. }
  assert (Hcb : c ≠ cb). { intros ->. apply Hjb. by eapply Hpos_inj. }
  destruct (Heq j Hj) as (snap & Hsn & Hso); [unfold b in *; lia|]. exists snap. split.
  2:{ intros c' lo hi Hc' Hlo Hhi. assert (c' = c) as -> by congruence. rewrite Hsame by done. by apply Hso. }
  intros u d Hd Hu. destruct (Hsn u d Hd Hu) as [H1 H2]. split; [done|].
  assert (Hun : (u < clen)%nat) by (by eapply lookup_lt_Some).
  pose proof (seen_nonneg t u) as Hs1. pose proof (seen_mono t u) as Hs2.
  destruct (decide (d = ca ∨ d = cb)) as [Hdab|Hdab].
  - assert (Hch : Rabs (satg x2 d - satg x d) <= M') by (destruct Hdab as [->| ->]; done).
    assert (Hst : seen t u + 1 <= seen (S t) u).
    { apply seen_step; [done|done|]. destruct Hdab as [->| ->]; [left|right]; by eapply Hpos_inj. }
    replace (snap d - satg x2 d) with ((snap d - satg x d) + - (satg x2 d - satg x d)) by lra.
    eapply Rle_trans; [apply Rabs_triang|]. rewrite Rabs_Ropp. clear - H2 Hch Hst Hs1 HM HM1. nra.
  - rewrite Hsame by tauto. eapply Rle_trans; [exact H2|]. clear - Hs1 Hs2 HM HM1. nra.
Qed.

Lemma pass_ok x : length x = nc → (∀ u, u ∉ cells → x !! u = xin !! u) → (∀ c, c ∈ cells → gcell x c) →
  ∃ M' x', for_loop clen 0 (grav_body pv dt kr visc_w visc_o smin smax tol maxit cells cg s0s) (0, x) = Some (M', x') ∧ ginv clen M' x'.
Proof using All.
  intros Hl Ho Hgd.
  destruct (for_loop_inv (λ t st, ginv t st.1 st.2) clen 0 (grav_body pv dt kr visc_w visc_o smin smax tol maxit cells cg s0s) (0, x)) as ([M' x'] & E & H).
  - split; [done|done|done|simpl; lra|]. intros j Hj Hj'. lia.
  - intros t [M y] Ht Hi. destruct (body_ok t M y) as (M' & y' & E & H); [lia|done|]. exists (M', y'). by rewrite Nat.add_1_r.
  - exists M', x'. done.
Qed.

Lemma rounds_ok fuel k x : (0 ≤ k)%Z → (Z.to_nat maxit + 1 ≤ fuel + Z.to_nat k)%nat → (k < Z.max maxit 1)%Z →
  length x = nc → (∀ u, u ∉ cells → x !! u = xin !! u) → (∀ c, c ∈ cells → gcell x c) →
  ∃ res, grav_rounds pv dt kr visc_w visc_o smin smax tol maxit fuel cells cg s0s k x = Some res ∧
    ∀ m x', res = Some (m, x') → (k < m ≤ Z.max maxit 1)%Z ∧ length x' = nc ∧ (∀ u, u ∉ cells → x' !! u = xin !! u) ∧ (∀ c, c ∈ cells → gcell x' c) ∧
      ∀ j, (j < clen)%nat → solved (λ _, 2 * tol) x' j.
Proof using All.
  revert k x. induction fuel as [|fuel IH]; intros k x Hk Hf Hkm Hl Ho Hgd; [lia|]. cbn [grav_rounds].
  destruct (pass_ok x Hl Ho Hgd) as (M & x' & E & [Hl' Ho' Hgd' HM Heq]). rewrite E. cbn [mbind option_bind].
  destruct (Rlt_dec tol M) as [Hbig|Hsmall].
  - destruct (decide (k + 1 < maxit)%Z) as [Hlt|Hge].
    + destruct (IH (k + 1)%Z x') as (res & Er & Hres); try done; try lia. exists res. split; [done|].
      intros m y Hy. destruct (Hres m y Hy) as (? & ?). split; [lia|done].
    + exists None. done.
  - eexists. split; [reflexivity|]. intros m y [= <- <-]. split; [lia|]. split; [done|]. split; [done|]. split; [done|].
    intros j Hj. destruct (Heq j Hj) as (snap & Hsn & Hso); [by left|]. exists snap. split; [|done].
    intros u d Hd Hu. destruct (Hsn u d Hd Hu) as [H1 H2]. split; [done|]. eapply Rle_trans; [exact H2|].
    assert (seen clen u <= 2) by (unfold seen; repeat destruct (decide _); lra). pose proof (seen_nonneg clen u). clear - H H0 Hsmall HM. nra.
Qed.
End col.
