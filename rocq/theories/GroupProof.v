(** Group controls: lemmas. *)
From Coq Require Import Reals Lra Psatz.
From Verif Require Import Base WellsModel WellsSpec WellsProof PhaseModel TableModel UTableProof TofSpec TofProof AccProof GroupModel GroupSpec.
Local Open Scope R_scope.
Unset Default Proof Using.

Fixpoint node_rect' (P : node → Prop) (HW : ∀ ps sp self gci shut, P (Well ps sp self gci shut))
    (HG : ∀ ps sp ch, Forall P ch → P (Group ps sp ch)) (n : node) : P n :=
  match n with
  | Well ps sp self gci shut => HW ps sp self gci shut
  | Group ps sp ch => HG ps sp ch ((fix go l : Forall P l := match l with [] => Forall_nil_2 P | c :: l => Forall_cons_2 P c l (node_rect' P HW HG c) (go l) end) ch)
  end.

Lemma guide_sum rq only n : guide_rate rq only n =
  rsum (λ lf, if negb only || is_grup rq (l_ps lf) (l_sp lf) then guide rq lf else 0) (leaves n).
Proof.
  induction n as [ps sp self gci shut|ps sp ch IH] using node_rect'; cbn [guide_rate leaves].
  - cbn [rsum l_ps l_sp]. unfold guide. cbn [l_ps l_sp]. destruct (_ || _); lra.
  - set (h := λ lf : leaf, _) in *. rewrite rsum_concat, rsum_map.
    assert (∀ s, foldl (λ s c, s + guide_rate rq only c) s ch = s + rsum (λ c, rsum h (leaves c)) ch) as E.
    { clear -IH. induction IH as [|c ch Hc _ IH]; intros s; cbn [foldl rsum]; [lra|]. rewrite IH, Hc. lra. }
    rewrite E. lra.
Qed.
Lemma guide_sum_all rq n : guide_rate rq false n = rsum (guide rq) (leaves n).
Proof. rewrite guide_sum. by apply rsum_ext. Qed.
Lemma grup_spec rq lf : is_grup rq (l_ps lf) (l_sp lf) = true ↔ under_group rq lf.
Proof. unfold is_grup, under_group. destruct rq; by rewrite bool_decide_eq_true. Qed.

(** ** What is asked of the wells of a tree *)
Fixpoint targets (rq : request) (t : R) (forced : bool) (n : node) : list (leaf * option R) :=
  match n with
  | Well ps sp self gci shut =>
    [(Leaf ps sp self gci shut, if negb forced && (negb (is_grup rq ps sp) && negb (is_none rq ps sp)) then None else Some t)]
  | Group ps sp ch =>
    if forced || is_fld rq ps sp || is_none rq ps sp then
      if Req_EM_T (guide_rate rq (negb forced) n) 0 then map (λ lf, (lf, None)) (leaves n) else
      concat (map (λ c, targets rq (t * guide_rate rq (negb forced) c / guide_rate rq (negb forced) n) true c) ch)
    else map (λ lf, (lf, None)) (leaves n)
  end.
Lemma map_fst_none (l : list leaf) : map fst (map (λ lf, (lf, None : option R)) l) = l.
Proof. induction l; [done|]. cbn. by f_equal. Qed.
Lemma concat_map_ext {A B} (f g : A → list B) l : Forall (λ x, f x = g x) l → concat (map f l) = concat (map g l).
Proof. induction 1 as [|x l E _ IH]; [done|]. cbn. by rewrite E, IH. Qed.
Lemma targets_leaves rq n : ∀ t forced, map fst (targets rq t forced n) = leaves n.
Proof.
  induction n as [ps sp self gci shut|ps sp ch IH] using node_rect'; intros t forced; cbn [targets leaves]; [done|].
  destruct (_ || _); [|apply map_fst_none]. destruct (Req_EM_T _ 0); [apply map_fst_none|].
  rewrite concat_map, map_map. apply concat_map_ext. eapply Forall_impl; [exact IH|]. intros c Hc. apply Hc.
Qed.

(** With all guide rates nonnegative, a forced control asks every well with a
    positive guide rate for its share. *)
Lemma targets_forced rq n : (∀ lf, lf ∈ leaves n → 0 <= guide rq lf) → rsum (guide rq) (leaves n) ≠ 0 → ∀ t lf x,
  (lf, x) ∈ targets rq t true n →
  (guide rq lf ≠ 0 → x = Some (t * guide rq lf / rsum (guide rq) (leaves n))) ∧ (guide rq lf = 0 → x = None ∨ x = Some 0).
Proof.
  induction n as [ps sp self gci shut|ps sp ch IH] using node_rect'; intros Hnn HG t lf x Hin.
  - cbn [targets negb andb] in Hin. apply elem_of_list_singleton in Hin. injection Hin as -> ->.
    cbn [leaves rsum] in *. split; [|lra]. intros Hg. f_equal. field. lra.
  - cbn [targets orb negb] in Hin. rewrite guide_sum_all in Hin.
    destruct (Req_EM_T _ 0) as [|_]; [done|]. set (G := rsum _ (leaves (Group ps sp ch))) in *.
    apply elem_of_list_In, in_concat in Hin as (l & Hl & Hin). apply in_map_iff in Hl as (c & <- & Hc).
    apply elem_of_list_In in Hin. apply elem_of_list_In in Hc. rewrite Forall_forall in IH. specialize (IH c Hc).
    assert (Hsub : ∀ lf', lf' ∈ leaves c → lf' ∈ leaves (Group ps sp ch)).
    { intros lf' H'. cbn [leaves]. apply elem_of_list_In, in_concat. exists (leaves c). split; [apply in_map; by apply elem_of_list_In|by apply elem_of_list_In]. }
    assert (Hnn' : ∀ lf', lf' ∈ leaves c → 0 <= guide rq lf') by auto. rewrite guide_sum_all in Hin.
    assert (Hlf : lf ∈ leaves c).
    { rewrite <- (targets_leaves rq c (t * rsum (guide rq) (leaves c) / G) true). apply elem_of_list_In, in_map_iff. exists (lf, x). split; [done|]. by apply elem_of_list_In. }
    destruct (Req_EM_T (rsum (guide rq) (leaves c)) 0) as [E|E].
    + assert (Hz : guide rq lf = 0).
      { clear -E Hnn' Hlf. induction (leaves c) as [|y l IHl]; [by apply elem_of_nil in Hlf|]. cbn [rsum] in E.
        assert (0 <= guide rq y) by (apply Hnn'; by left). assert (0 <= rsum (guide rq) l) by (apply rsum_nonneg; intros; apply Hnn'; by right).
        apply elem_of_cons in Hlf as [->|Hlf]; [lra|]. apply IHl; [intros; apply Hnn'; by right|done|lra]. }
      rewrite E in Hin. split; [done|]. intros _. destruct c as [ps' sp' self gci shut|ps' sp' ch'].
      * cbn [targets negb andb] in Hin. apply elem_of_list_singleton in Hin. injection Hin as -> ->. right. f_equal. unfold Rdiv. lra.
      * cbn [targets orb negb] in Hin. rewrite guide_sum_all in Hin. destruct (Req_EM_T _ 0); [|done]. left.
        apply elem_of_list_In, in_map_iff in Hin as (? & [= _ <-] & _). done.
    + destruct (IH Hnn' E _ _ _ Hin) as [H1 H2]. split; [|done]. intros Hg. rewrite (H1 Hg). f_equal. field. done.
Qed.
Lemma group_guide_sum rq n : guide_rate rq true n = rsum (group_guide rq) (leaves n).
Proof.
  rewrite guide_sum. apply rsum_ext. intros lf _. unfold group_guide. pose proof (grup_spec rq lf) as H. cbn [negb orb].
  destruct (is_grup _ _ _), (decide (under_group rq lf)) as [Hu|Hu]; try done; [by destruct Hu; apply H|by apply H in Hu].
Qed.
Lemma group_guide_all rq (l : list leaf) : (∀ lf, lf ∈ l → under_group rq lf ∨ guide rq lf = 0) → ∀ lf, lf ∈ l → group_guide rq lf = guide rq lf.
Proof. intros H lf Hlf. unfold group_guide. destruct (decide _); [done|]. by destruct (H lf Hlf). Qed.
Lemma elem_of_leaves c ps sp ch lf : c ∈ ch → lf ∈ leaves c → lf ∈ leaves (Group ps sp ch).
Proof. intros Hc Hlf. cbn [leaves]. apply elem_of_list_In, in_concat. exists (leaves c). split; [apply in_map; by apply elem_of_list_In|by apply elem_of_list_In]. Qed.

(** A control that is not forced asks for the same if the group is free and all
    its wells are under group control or have no guide rate. *)
Lemma targets_free rq ps sp ch t : (∀ lf, lf ∈ leaves (Group ps sp ch) → under_group rq lf ∨ guide rq lf = 0) → free_group rq (Group ps sp ch) →
  targets rq t false (Group ps sp ch) = targets rq t true (Group ps sp ch).
Proof.
  intros Hu Hf. cbn [targets negb andb orb].
  assert (is_fld rq ps sp || is_none rq ps sp = true) as ->.
  { cbn [free_group] in Hf. unfold is_fld, is_none. destruct rq; destruct Hf as [-> | ->]; done. }
  assert (E : ∀ n, (∀ lf, lf ∈ leaves n → under_group rq lf ∨ guide rq lf = 0) → guide_rate rq true n = guide_rate rq false n).
  { intros n Hn. rewrite group_guide_sum, guide_sum_all. apply rsum_ext. by apply group_guide_all. }
  rewrite (E _ Hu). destruct (Req_EM_T _ 0); [done|].
  apply concat_map_ext. apply Forall_forall. intros c Hc. rewrite (E c); [done|]. intros lf Hlf. apply Hu. by eapply elem_of_leaves.
Qed.
Lemma zero_sum (g : leaf → R) l : (∀ lf, lf ∈ l → 0 <= g lf) → rsum g l = 0 → ∀ lf, lf ∈ l → g lf = 0.
Proof.
  intros Hnn E lf Hlf. induction l as [|y l IHl]; [by apply elem_of_nil in Hlf|]. cbn [rsum] in E.
  assert (0 <= g y) by (apply Hnn; by left). assert (0 <= rsum g l) by (apply rsum_nonneg; intros; apply Hnn; by right).
  apply elem_of_cons in Hlf as [->|Hlf]; [lra|]. apply IHl; [intros; apply Hnn; by right|lra|done].
Qed.
Lemma targets_in rq t forced n lf x : (lf, x) ∈ targets rq t forced n → lf ∈ leaves n.
Proof. intros H. rewrite <- (targets_leaves rq n t forced). apply elem_of_list_In, in_map_iff. exists (lf, x). split; [done|by apply elem_of_list_In]. Qed.
Lemma targets_obedient rq c G T : obedient rq c → (∀ lf, lf ∈ leaves c → 0 <= group_guide rq lf) → G ≠ 0 → ∀ lf x,
  (lf, x) ∈ targets rq (guide_rate rq true c / G * T) false c →
  (group_guide rq lf ≠ 0 → x = Some (T * group_guide rq lf / G)) ∧ (group_guide rq lf = 0 → x = None ∨ x = Some 0).
Proof.
  intros Hob Hnn HG lf x Hin. destruct c as [ps sp self gci shut|ps sp ch].
  - rewrite group_guide_sum in Hin. cbn [targets leaves rsum] in Hin. apply elem_of_list_singleton in Hin. injection Hin as -> ->.
    set (lf := Leaf _ _ _ _ _). pose proof (grup_spec rq lf) as H. subst lf. set (lf := Leaf _ _ _ _ _) in *. cbn [l_ps l_sp negb andb] in *.
    change (is_grup rq (l_ps lf) (l_sp lf)) with (is_grup rq ps sp) in H. split.
    + intros Hne. assert (is_grup rq ps sp = true) as ->.
      { unfold group_guide in Hne. destruct (decide _); [by apply H|done]. }
      cbn [negb andb]. f_equal. field. done.
    + intros ->. destruct (negb (is_grup rq ps sp) && _); [by left|]. right. f_equal. unfold Rdiv. lra.
  - destruct Hob as [Hf Hu]. rewrite (targets_free rq ps sp ch _ Hu Hf) in Hin. pose proof (targets_in _ _ _ _ _ _ Hin) as Hlf.
    rewrite (group_guide_all rq _ Hu lf Hlf). rewrite group_guide_sum in Hin.
    assert (E : rsum (group_guide rq) (leaves (Group ps sp ch)) = rsum (guide rq) (leaves (Group ps sp ch))) by (apply rsum_ext; by apply group_guide_all).
    assert (Hnn' : ∀ lf, lf ∈ leaves (Group ps sp ch) → 0 <= guide rq lf) by (intros lf' H'; rewrite <- (group_guide_all rq _ Hu lf' H'); by apply Hnn).
    destruct (Req_EM_T (rsum (guide rq) (leaves (Group ps sp ch))) 0) as [Ez|Hne].
    + split; [intros Hne; destruct Hne; by eapply zero_sum|]. intros _. left. cbn [targets orb negb] in Hin. rewrite guide_sum_all in Hin.
      destruct (Req_EM_T _ 0); [|done]. apply elem_of_list_In, in_map_iff in Hin as (? & [= _ <-] & _). done.
    + destruct (targets_forced rq _ Hnn' Hne _ lf x Hin) as [H1 H2]. split; [|done]. intros Hg. rewrite (H1 Hg), E. f_equal. field. done.
Qed.
Lemma targets_own rq ps sp self gci shut t : is_grup rq ps sp = false → is_none rq ps sp = false →
  targets rq t false (Well ps sp self gci shut) = [(Leaf ps sp self gci shut, None)].
Proof. intros E1 E2. cbn [targets]. by rewrite E1, E2. Qed.

Section grown.
Context {name_t : Type}.
Notation awell := (awell R name_t).
(** Growth of the wells. *)
Definition grown (a a' : list (awell * bool)) : Prop :=
  ∀ i w cl, a !! i = Some (w, cl) → ∃ w', a' !! i = Some (w', cl) ∧ aw_type w' = aw_type w ∧ (length (aw_ctrls w) <= length (aw_ctrls w'))%nat.
Lemma grown_refl a : grown a a.
Proof. intros i w cl H. by exists w. Qed.
Lemma grown_trans a b c : grown a b → grown b c → grown a c.
Proof.
  intros H1 H2 i w cl H. destruct (H1 i w cl H) as (w1 & E1 & T1 & L1). destruct (H2 i w1 cl E1) as (w2 & E2 & T2 & L2).
  exists w2. split_and!; [done|congruence|lia].
Qed.
End grown.

(** ** What happens to the wells *)
Section effect.
Context {name_t : Type}.
Notation awell := (awell R name_t).
Notation wells := (wells R name_t).
Variable J : junk R name_t.
Variable pu : phase_usage.
Variable rq : request.
Variables (ct : ctype) (d : list R).
Hypothesis Hcd : control_of pu rq = Some (ct, d).
Hypothesis Hd : length d = 3%nat.
Variable np : nat.
Hypothesis Hnp : (np <= 3)%nat.

Definition newc (t : R) : actrl R := ACtrl ct (match rq with ReqP _ => - t | ReqI _ => t end) (take np d).
Definition with_ctrls (w : awell) (l : list (actrl R)) (cur : Z) : awell :=
  AWell (aw_type w) (aw_depth w) (aw_frac w) (aw_perfs w) (aw_name w) l cur.
Definition enter1 (gci : Z) (c : actrl R) (w : awell) : Z * list (actrl R) :=
  if decide (gci < 0)%Z then (Z.of_nat (length (aw_ctrls w)), aw_ctrls w ++ [c]) else (gci, <[Z.to_nat gci := c]> (aw_ctrls w)).
Definition perform1 (x : leaf * option R) (a : list (awell * bool)) : leaf * list (awell * bool) :=
  match x.2, a !! l_self x.1 with
  | Some t, Some (w, cl) =>
    if decide (aw_type w = wtype_of rq) then
      let '(g, cs) := enter1 (l_gci x.1) (newc t) w in
      (Leaf (l_ps x.1) (l_sp x.1) (l_self x.1) g (l_shut x.1), <[l_self x.1 := (with_ctrls w cs g, cl)]> a)
    else (x.1, a)
  | _, _ => (x.1, a)
  end.
Fixpoint perform (l : list (leaf * option R)) (a : list (awell * bool)) : list leaf * list (awell * bool) :=
  match l with
  | [] => ([], a)
  | x :: l => let '(lf, a) := perform1 x a in let '(r, a) := perform l a in (lf :: r, a)
  end.
Lemma perform_app l m a : perform (l ++ m) a = let '(r, a) := perform l a in let '(r', a) := perform m a in (r ++ r', a).
Proof.
  revert a. induction l as [|x l IH]; intros a; cbn [perform app]; [by destruct (perform m a)|].
  destruct (perform1 x a) as [lf a1]. rewrite IH. destruct (perform l a1) as [r a2]. by destruct (perform m a2).
Qed.
Lemma perform_none l a : perform (map (λ lf, (lf, None)) l) a = (l, a).
Proof. induction l as [|x l IH]; [done|]. cbn. unfold perform1. cbn. by rewrite IH. Qed.

(** A single control entered. *)
Lemma overwrite_crel c l cur cl k t : crel 0 np c l cur cl → (k < length l)%nat →
  ∃ ty tg ds, upd (c_type c) k ct = Some ty ∧ upd (c_target c) k t = Some tg ∧ memcpy (c_distr c) (np * k) (take np d) = Some ds ∧
    crel 0 np (Ctrl (c_num c) ty tg ds (c_current c) (c_cpty c)) (<[k := ACtrl ct t (take np d)]> l) cur cl.
Proof.
  intros [C1 C2 C3 C4 C5 C6 C7 C8] Hk.
  assert (Hl : length (take np d) = np) by (rewrite take_length; lia).
  assert (k * np + np <= c_cpty c * np)%nat by nia.
  rewrite !upd_Some by lia. destruct (memcpy_is_Some (c_distr c) (np * k) (take np d)) as [ds E]; [lia|].
  exists (<[k := ct]> (c_type c)), (<[k := t]> (c_target c)), ds. do 3 (split; [done|]).
  assert (Hs : ∀ j, j ≠ k → slice ds (j * np) np = slice (c_distr c) (j * np) np).
  { intros j Hj. apply slice_ext. intros i Hi1 Hi2. destruct (decide (j < k)%nat).
    - eapply memcpy_lookup_lt; [done|]. nia.
    - eapply memcpy_lookup_ge; [done|]. rewrite Hl. nia. }
  split; cbn [c_num c_type c_target c_distr c_current c_cpty]; rewrite ?insert_length; try done.
  - by rewrite (memcpy_length _ _ _ _ E).
  - intros j x Hx. destruct (decide (j = k)) as [->|Hj].
    + rewrite list_lookup_insert in Hx by done. injection Hx as <-. cbn [ac_type ac_target ac_distr].
      rewrite !list_lookup_insert by lia. split_and!; try done. apply slice_memcpy in E. rewrite Hl in E. by rewrite (Nat.mul_comm k np).
    + rewrite list_lookup_insert_ne in Hx by done. destruct (C6 j x Hx) as (H1 & H2 & H3).
      rewrite !list_lookup_insert_ne by done. rewrite Hs by done. done.
  - intros Hcl j Hj1 Hj2. rewrite Hs by lia. by apply C7.
Qed.

Lemma enter_ok i gci W a w cl t : rel 0 W a → w_np W = np → a !! i = Some (w, cl) → (gci < Z.of_nat (length (aw_ctrls w)))%Z →
  ∃ W', enter_control J ct t d i gci (W, []) = Some ((enter1 gci (ACtrl ct t (take np d)) w).1, (W', [])) ∧ w_np W' = np ∧
    rel 0 W' (<[i := (with_ctrls w (enter1 gci (ACtrl ct t (take np d)) w).2 (aw_current w), cl)]> a).
Proof.
  intros HR Hn Hi Hg. assert (Hlt : (i < length a)%nat) by (by eapply lookup_lt_Some).
  assert (Hf : first_np np d = Some (take np d)).
  { unfold first_np. rewrite slice_Some by lia. done. }
  assert (Hl : length (take np d) = np) by (rewrite take_length; lia).
  unfold enter_control, enter1. destruct (decide (gci < 0)%Z) as [Hneg|Hpos]; cbn [fst snd].
  - rewrite Hn, Hf. cbn [mbind option_bind].
    destruct (append_correct 0 (-1) J ct t (Some (take np d)) i W a [] HR Hlt) as (b & W' & o' & E & Hn' & (a' & Hst & HR') & Ho).
    { intros l [= <-]. by rewrite Hl. }
    destruct (Ho eq_refl) as [-> ->]. rewrite E. cbn [mbind option_bind].
    inversion Hst; subst. match goal with H : a !! i = Some (?w0, ?cl0) |- _ => rewrite Hi in H; injection H as <- <- end.
    match goal with H : ∀ l, Some _ = Some l → _ |- _ => rewrite (H _ eq_refl) in HR' end.
    destruct (r_well _ _ _ HR' i (with_ctrls w (aw_ctrls w ++ [ACtrl ct t (take (w_np W) d)]) (aw_current w)) cl) as (_ & _ & _ & _ & _ & _ & c & Ec & Hc).
    { by rewrite list_lookup_insert. }
    unfold get_ctrl. rewrite Ec. cbn [mbind option_bind]. exists W'. split; [|by split].
    do 2 f_equal. rewrite (cr_num _ _ _ _ _ _ Hc). cbn. rewrite app_length. cbn. lia.
  - unfold overwrite_control, get_ctrl. destruct (r_well _ _ _ HR i w cl Hi) as (_ & _ & _ & _ & _ & _ & c & Ec & Hc).
    rewrite Ec. cbn [mbind option_bind]. rewrite Hn in *.
    destruct (overwrite_crel c _ _ _ (Z.to_nat gci) t Hc ltac:(lia)) as (ty & tg & ds & E1 & E2 & E3 & Hc').
    rewrite E1. cbn [mbind option_bind]. rewrite E2. cbn [mbind option_bind]. rewrite Hf. cbn [mbind option_bind].
    rewrite E3. cbn [mbind option_bind]. unfold put_ctrl. rewrite upd_Some by (by eapply lookup_lt_Some). cbn [mbind option_bind].
    eexists. split; [done|]. split; [done|]. rewrite <- Hn in Hc' |- *. apply (rel_set_ctrl _ _ _ _ _ _ _ _ _ _ HR Hi Hc').
Qed.

Lemma grown_perform1 x a : grown a (perform1 x a).2.
Proof.
  unfold perform1. destruct x as [lf [t|]]; cbn [fst snd]; [|apply grown_refl].
  destruct (a !! l_self lf) as [[w cl]|] eqn:E; [|apply grown_refl]. destruct (decide _); [|apply grown_refl].
  intros i w' cl' H. unfold enter1. assert (l_self lf < length a)%nat by (by eapply lookup_lt_Some).
  destruct (decide (i = l_self lf)) as [->|Hne].
  - rewrite E in H. injection H as <- <-. destruct (decide _); cbn [snd]; (eexists; rewrite list_lookup_insert by done; split; [done|]; split; [done|]; cbn [with_ctrls aw_ctrls]; rewrite ?app_length, ?insert_length; lia).
  - exists w'. split; [|done]. destruct (decide _); cbn [snd]; by rewrite list_lookup_insert_ne.
Qed.
Lemma grown_perform l a : grown a (perform l a).2.
Proof.
  revert a. induction l as [|x l IH]; intros a; cbn [perform]; [apply grown_refl|].
  pose proof (grown_perform1 x a) as H. destruct (perform1 x a) as [lf a1]. specialize (IH a1). destruct (perform l a1) as [r a2]. cbn [snd] in *. by eapply grown_trans.
Qed.
Definition leaf_in (a : list (awell * bool)) (lf : leaf) : Prop :=
  ∃ w cl, a !! l_self lf = Some (w, cl) ∧ (l_gci lf < Z.of_nat (length (aw_ctrls w)))%Z.
Lemma grown_leaf a a' lf : grown a a' → leaf_in a lf → leaf_in a' lf.
Proof. intros Hg (w & cl & E & H). destruct (Hg _ _ _ E) as (w' & E' & _ & L). exists w', cl. split; [done|lia]. Qed.
(** Only wells of the right type are asked for a rate. *)
Definition askable (a : list (awell * bool)) (x : leaf * option R) : Prop :=
  ∀ t w cl, x.2 = Some t → a !! l_self x.1 = Some (w, cl) → aw_type w ≠ wtype_of rq → t = 0.
Lemma grown_askable a a' x : grown a a' → leaf_in a x.1 → askable a x → askable a' x.
Proof.
  intros Hg (w0 & cl0 & E0 & _) H t w cl Ht E Hty. destruct (Hg _ _ _ E0) as (w' & E' & T & _). rewrite E in E'. injection E' as <- <-.
  apply (H t w0 cl Ht E0). by rewrite <- T.
Qed.

Lemma apply_well_ok t forced ps sp self gci shut W a : let lf := Leaf ps sp self gci shut in
  let x := (lf, if negb forced && (negb (is_grup rq ps sp) && negb (is_none rq ps sp)) then None else Some t) in
  rel 0 W a → w_np W = np → leaf_in a lf → askable a x →
  ∃ n' W', apply_well J pu rq t forced ps sp self gci shut (W, []) = Some (n', (W', [])) ∧
    rel 0 W' (perform1 x a).2 ∧ leaves n' = [(perform1 x a).1] ∧ strip rq n' = strip rq (Well ps sp self gci shut) ∧ w_np W' = np.
Proof.
  intros lf x HR Hn (w & cl & Ew & Hg) Hask. unfold apply_well. subst x lf. cbn [l_self l_gci] in *.
  destruct (negb forced && _) eqn:Ef.
  { exists (Well ps sp self gci shut), W. split_and!; try done. }
  unfold perform1. cbn [fst snd l_self l_gci l_ps l_sp l_shut]. rewrite Ew.
  destruct (r_well _ _ _ HR self w cl Ew) as (Ety & _). cbn [fst snd]. rewrite Ety. cbn [mbind option_bind].
  destruct (decide (aw_type w = wtype_of rq)) as [Hty|Hty].
  - rewrite Hcd. cbn [mbind option_bind]. set (t' := match rq with ReqP _ => - t | ReqI _ => t end).
    destruct (enter_ok self gci W a w cl t' HR Hn Ew Hg) as (W1 & E & Hn1 & HR1). rewrite E. cbn [mbind option_bind fst snd].
    fold (newc t). change (ACtrl ct t' (take np d)) with (newc t) in *.
    destruct (enter1 gci (newc t) w) as [g cs] eqn:Een. cbn [fst snd] in *.
    assert (Hself : (self < length a)%nat) by (by eapply lookup_lt_Some).
    destruct (set_current_correct 0 self g W1 _ (with_ctrls w cs (aw_current w)) cl HR1) as (W2 & E2 & Hn2 & HR2).
    { by rewrite list_lookup_insert. }
    { unfold enter1 in Een. destruct (decide _); injection Een as <- <-; cbn; rewrite ?app_length, ?insert_length; cbn; lia. }
    rewrite E2. cbn [mbind option_bind]. eexists _, W2. split; [done|]. rewrite list_insert_insert in HR2. split_and!; try done. by rewrite Hn2.
  - assert (t = 0) as -> by (apply (Hask t w cl); try done; cbn [snd]; by rewrite Ef). destruct (Req_EM_T 0 0); [|lra].
    exists (Well ps sp self gci shut), W. done.
Qed.

Definition go_apply (t : R) (only : bool) (G : R) := fix go (l : list node) (s : wells * list bool) : option (list node * (wells * list bool)) :=
  match l with
  | [] => Some ([], s)
  | c :: l =>
    child_target ← rdiv (t * guide_rate rq only c) G;
    '(c, s) ← apply_control J pu rq child_target true c s;
    '(l, s) ← go l s;
    Some (c :: l, s)
  end.
Lemma apply_group t forced ps sp ch s : apply_control J pu rq t forced (Group ps sp ch) s =
  if forced || is_fld rq ps sp || is_none rq ps sp then
    let G := guide_rate rq (negb forced) (Group ps sp ch) in
    if Req_EM_T G 0 then Some (Group ps sp ch, s) else
    '(ch, s) ← go_apply t (negb forced) G ch s;
    Some (match rq with ReqP _ => Group (set_pmode ps P_FLD) sp ch | ReqI _ => Group ps (set_imode sp I_FLD) ch end, s)
  else Some (Group ps sp ch, s).
Proof. reflexivity. Qed.

Lemma apply_ok n : ∀ t forced W a, rel 0 W a → w_np W = np → Forall (leaf_in a) (leaves n) → Forall (askable a) (targets rq t forced n) →
  ∃ n' W', apply_control J pu rq t forced n (W, []) = Some (n', (W', [])) ∧
    rel 0 W' (perform (targets rq t forced n) a).2 ∧ leaves n' = (perform (targets rq t forced n) a).1 ∧
    strip rq n' = strip rq n ∧ w_np W' = np.
Proof.
  induction n as [ps sp self gci shut|ps sp ch IH] using node_rect'; intros t forced W a HR Hn Hin Hask.
  - cbn [targets leaves] in *. apply Forall_cons in Hin as [Hin _]. apply Forall_cons in Hask as [Hask _].
    destruct (apply_well_ok t forced ps sp self gci shut W a HR Hn Hin Hask) as (n' & W' & E & H1 & H2 & H3 & H4).
    exists n', W'. cbn [apply_control perform]. destruct (perform1 _ a) as [lf a1]. cbn [fst snd] in *. done.
  - rewrite apply_group. cbn [targets] in *.
    destruct (_ || _); [|rewrite perform_none; by exists (Group ps sp ch), W].
    cbn zeta. set (G := guide_rate rq (negb forced) (Group ps sp ch)) in *.
    destruct (Req_EM_T G 0) as [|HG]; [rewrite perform_none; by exists (Group ps sp ch), W|].
    cbn [leaves] in Hin. clearbody G.
    assert (∃ ch' W', go_apply t (negb forced) G ch (W, []) = Some (ch', (W', [])) ∧
      rel 0 W' (perform (concat (map (λ c, targets rq (t * guide_rate rq (negb forced) c / G) true c) ch)) a).2 ∧
      concat (map leaves ch') = (perform (concat (map (λ c, targets rq (t * guide_rate rq (negb forced) c / G) true c) ch)) a).1 ∧
      map (strip rq) ch' = map (strip rq) ch ∧ w_np W' = np) as (ch' & W' & E & H1 & H2 & H3 & H4).
    { revert W a HR Hn Hin Hask. induction IH as [|c ch Hc _ IHl]; intros W a HR Hn Hin Hask.
      - exists [], W. done.
      - cbn [map concat] in Hin, Hask. apply Forall_app in Hin as [Hin1 Hin2]. apply Forall_app in Hask as [Hask1 Hask2].
        destruct (Hc _ true W a HR Hn Hin1 Hask1) as (c' & W1 & E1 & R1 & L1 & S1 & N1).
        change (go_apply t (negb forced) G (c :: ch) (W, [])) with (child_target ← rdiv (t * guide_rate rq (negb forced) c) G; '(c, s) ← apply_control J pu rq child_target true c (W, []); '(l, s) ← go_apply t (negb forced) G ch s; Some (c :: l, s)). cbn [map concat]. rewrite perform_app. rewrite rdiv_Some by done. cbn [mbind option_bind]. rewrite E1. cbn [mbind option_bind].
        pose proof (grown_perform (targets rq (t * guide_rate rq (negb forced) c / G) true c) a) as Hgr.
        destruct (perform _ a) as [r1 a1] eqn:Ep. cbn [fst snd] in *.
        destruct (IHl W1 a1 R1 N1) as (ch' & W2 & E2 & R2 & L2 & S2 & N2).
        { eapply Forall_impl; [exact Hin2|]. intros lf. by apply grown_leaf. }
        { rewrite Forall_forall in Hask2. rewrite Forall_forall in Hin2. apply Forall_forall. intros x Hx. apply (grown_askable a); [done| |by apply Hask2].
          apply Hin2. clear -Hx. induction ch as [|c' ch IH]; [by apply elem_of_nil in Hx|]. cbn [map concat] in *.
          apply elem_of_app in Hx as [Hx|Hx]; apply elem_of_app; [left|right; by apply IH].
          rewrite <- (targets_leaves rq c' (t * guide_rate rq (negb forced) c' / G) true). apply elem_of_list_In, in_map. by apply elem_of_list_In. }
        rewrite E2. cbn [mbind option_bind]. exists (c' :: ch'), W2. split; [done|].
        destruct (perform _ a1) as [r2 a2] eqn:Ep2. cbn [fst snd map concat] in *. split; [done|]. rewrite L1, L2. split; [done|]. by rewrite S1, S2. }
    rewrite E. cbn [mbind option_bind]. eexists _, W'. split; [done|]. split; [done|]. split; [by destruct rq|]. split; [|done].
    destruct rq; cbn [strip]; rewrite H3; done.
Qed.

Definition shared_targets (G T : R) (ch : list node) : list (leaf * option R) :=
  concat (map (λ c, targets rq (guide_rate rq true c / G * T) false c) ch).
Lemma share_out_ok G T ch : G ≠ 0 → ∀ W a, rel 0 W a → w_np W = np → Forall (leaf_in a) (concat (map leaves ch)) → Forall (askable a) (shared_targets G T ch) →
  ∃ ch' W', share_out J pu rq G T ch (W, []) = Some (ch', (W', [])) ∧
    rel 0 W' (perform (shared_targets G T ch) a).2 ∧ concat (map leaves ch') = (perform (shared_targets G T ch) a).1 ∧
    map (strip rq) ch' = map (strip rq) ch ∧ w_np W' = np.
Proof.
  intros HG. unfold shared_targets. induction ch as [|c ch IHl]; intros W a HR Hn Hin Hask; [by exists [], W|].
  cbn [map concat] in Hin, Hask |- *. apply Forall_app in Hin as [Hin1 Hin2]. apply Forall_app in Hask as [Hask1 Hask2].
  destruct (apply_ok c _ false W a HR Hn Hin1 Hask1) as (c' & W1 & E1 & R1 & L1 & S1 & N1).
  cbn [share_out]. rewrite perform_app. rewrite rdiv_Some by done. cbn [mbind option_bind]. rewrite E1. cbn [mbind option_bind].
  pose proof (grown_perform (targets rq (guide_rate rq true c / G * T) false c) a) as Hgr.
  destruct (perform _ a) as [r1 a1] eqn:Ep. cbn [fst snd] in *.
  destruct (IHl W1 a1 R1 N1) as (ch' & W2 & E2 & R2 & L2 & S2 & N2).
  { eapply Forall_impl; [exact Hin2|]. intros lf. by apply grown_leaf. }
  { rewrite Forall_forall in Hask2. rewrite Forall_forall in Hin2. apply Forall_forall. intros x Hx. apply (grown_askable a); [done| |by apply Hask2].
    apply Hin2. clear -Hx. induction ch as [|c' ch IH]; [by apply elem_of_nil in Hx|]. cbn [map concat] in *.
    apply elem_of_app in Hx as [Hx|Hx]; apply elem_of_app; [left|right; by apply IH]. destruct x as [lf x]. by eapply targets_in. }
  rewrite E2. cbn [mbind option_bind]. exists (c' :: ch'), W2. split; [done|].
  destruct (perform _ a1) as [r2 a2] eqn:Ep2. cbn [fst snd map concat] in *. split; [done|]. rewrite L1, L2. split; [done|]. by rewrite S1, S2.
Qed.

(** ** Well by well *)
Lemma perform_frame l a i : i ∉ (l_self ∘ fst <$> l) → (perform l a).2 !! i = a !! i.
Proof.
  revert a. induction l as [|x l IH]; intros a Hi; [done|]. rewrite fmap_cons, not_elem_of_cons in Hi. destruct Hi as [H1 H2].
  cbn [perform]. assert (E : (perform1 x a).2 !! i = a !! i).
  { unfold perform1. destruct x as [lf [t|]]; [|done]. cbn [fst snd] in *. destruct (a !! l_self lf) as [[w cl]|]; [|done].
    destruct (decide _); [|done]. destruct (enter1 _ _ _). cbn [snd]. rewrite list_lookup_insert_ne; [done|]. by intros <-. }
  destruct (perform1 x a) as [lf a1]. cbn [snd] in E. specialize (IH a1 H2). destruct (perform l a1) as [r a2]. cbn [snd] in *. by rewrite IH.
Qed.
Lemma perform_leaf l a k x : NoDup (l_self ∘ fst <$> l) → l !! k = Some x →
  (perform l a).1 !! k = Some (perform1 x a).1 ∧ (perform l a).2 !! l_self x.1 = (perform1 x a).2 !! l_self x.1.
Proof.
  revert a k. induction l as [|y l IH]; intros a k Hnd Hk; [done|]. rewrite fmap_cons in Hnd. apply NoDup_cons in Hnd as [Hy Hnd].
  cbn [perform]. destruct k as [|k]; cbn in Hk.
  - injection Hk as ->. destruct (perform1 x a) as [lf a1]. pose proof (perform_frame l a1 (l_self x.1) Hy) as Hf.
    destruct (perform l a1) as [r a2]. done.
  - assert (Hne : l_self x.1 ≠ l_self y.1).
    { intros E. apply Hy. apply elem_of_list_fmap. exists x. split; [done|]. by eapply elem_of_list_lookup_2. }
    assert (E0 : (perform1 y a).2 !! l_self x.1 = a !! l_self x.1).
    { unfold perform1 at 1. destruct y as [lf [t|]]; [|done]. cbn [fst snd] in *. destruct (a !! l_self lf) as [[w cl]|]; [|done].
      destruct (decide _); [|done]. destruct (enter1 _ _ _). cbn [snd]. by rewrite list_lookup_insert_ne. }
    destruct (perform1 y a) as [lf a1]. cbn [snd] in E0. destruct (IH a1 k Hnd Hk) as [I1 I2]. destruct (perform l a1) as [r a2]. cbn [fst snd] in *.
    assert (E1 : (perform1 x a1).1 = (perform1 x a).1 ∧ (perform1 x a1).2 !! l_self x.1 = (perform1 x a).2 !! l_self x.1).
    { unfold perform1. rewrite E0. destruct x as [lx [t|]]; cbn [fst snd] in *; [|by rewrite ?E0].
      destruct (a !! l_self lx) as [[w cl]|] eqn:Ea; [|cbn [fst snd]; by rewrite ?E0, ?Ea]. destruct (decide _); [|cbn [fst snd]; by rewrite ?E0, ?Ea].
      destruct (enter1 _ _ _). cbn [fst snd]. split; [done|].
      rewrite !list_lookup_insert; [done|by eapply lookup_lt_Some|]. rewrite <- E0 in Ea. by eapply lookup_lt_Some. }
    destruct E1 as [E1 E2]. rewrite E1 in I1. by rewrite E2 in I2.
Qed.
End effect.

Lemma strip_leaf_self rq n n' : strip rq n' = strip rq n → l_self <$> leaves n' = l_self <$> leaves n.
Proof.
  revert n'. induction n as [ps sp self gci shut|ps sp ch IH] using node_rect'; intros [ps' sp' self' gci' shut'|ps' sp' ch'] E; cbn [strip] in E.
  - injection E as -> -> -> ->. done.
  - by destruct rq.
  - by destruct rq.
  - assert (E' : map (strip rq) ch' = map (strip rq) ch) by (destruct rq; congruence). clear E. cbn [leaves].
    revert ch' E'. induction IH as [|c ch Hc _ IHl]; intros [|c' ch'] E; try done. cbn [map concat] in *. injection E as E1 E2.
    rewrite !fmap_app, (Hc c' E1), (IHl ch' E2). done.
Qed.

Section distribution.
Context {name_t : Type}.
Notation awell := (awell R name_t).
Notation wells := (wells R name_t).
Variable J : junk R name_t.
Variable pu : phase_usage.
Hypothesis Hpu : pu_ok pu.

(** ** The control for a request *)
Local Instance phase_eq_dec : EqDecision phase. Proof. solve_decision. Defined.
Lemma control_of_ok rq : can_request pu rq → ∃ d, control_of pu rq = Some (rate_kind rq, d) ∧ length d = 3%nat ∧
  ∀ p i, pu_used pu !! phase_index p = Some 1%nat → pu_pos pu !! phase_index p = Some i → d !! i = Some (if counted rq p then 1 else 0).
Proof.
  assert (H1 : ∀ d p, length d = 3%nat → pu_used pu !! phase_index p = Some 1%nat → ∃ i, (i < 3)%nat ∧ pu_pos pu !! phase_index p = Some i ∧ set3 pu d p = Some (<[i := 1]> d)).
  { intros d p Hd Hp. destruct (pk_all _ Hpu p) as (u & i & E1 & E2 & E3 & _). exists i. split; [done|]. split; [done|].
    unfold set3, used, pos_of. rewrite Hp. cbn [mbind option_bind]. rewrite decide_False by done. rewrite E2. cbn [mbind option_bind]. apply upd_Some. lia. }
  assert (Hlt : ∀ p i, pu_used pu !! phase_index p = Some 1%nat → pu_pos pu !! phase_index p = Some i → (i < 3)%nat).
  { intros p i Hp Hi. pose proof (pk_pos _ Hpu p i Hp Hi). pose proof (pk_num _ Hpu). lia. }
  assert (Hz : ∀ i, (i < 3)%nat → [0; 0; 0] !! i = Some 0) by (intros [|[|[|]]] ?; try done; lia).
  assert (Ho : ∀ i, (i < 3)%nat → [1; 1; 1] !! i = Some 1) by (intros [|[|[|]]] ?; try done; lia).
  assert (Hone : ∀ q, pu_used pu !! phase_index q = Some 1%nat → ∃ d, set3 pu [0; 0; 0] q = Some d ∧ length d = 3%nat ∧
    ∀ p i, pu_used pu !! phase_index p = Some 1%nat → pu_pos pu !! phase_index p = Some i → d !! i = Some (if decide (p = q) then 1 else 0)).
  { intros q Hq. destruct (H1 [0; 0; 0] q eq_refl Hq) as (j & Hj & Ej & E). eexists. split; [done|]. split; [by rewrite insert_length|].
    intros p i Hp Hi. destruct (decide (p = q)) as [->|Hne].
    - rewrite Ej in Hi. injection Hi as ->. by rewrite list_lookup_insert.
    - rewrite list_lookup_insert_ne; [by eauto|]. intros ->. apply Hne. by eapply (pk_inj _ Hpu). }
  destruct rq as [m|m]; destruct m; cbn [can_request control_of rate_kind]; try done; intros H.
  - destruct (Hone Liquid) as (d & -> & Hd & Hv); [by apply H|]. exists d. split; [done|]. split; [done|]. intros p i Hp Hi. rewrite (Hv p i Hp Hi). by destruct p.
  - destruct (Hone Aqua) as (d & -> & Hd & Hv); [by apply H|]. exists d. split; [done|]. split; [done|]. intros p i Hp Hi. rewrite (Hv p i Hp Hi). by destruct p.
  - destruct (Hone Vapour) as (d & -> & Hd & Hv); [by apply H|]. exists d. split; [done|]. split; [done|]. intros p i Hp Hi. rewrite (Hv p i Hp Hi). by destruct p.
  - destruct (Hone Liquid) as (d & -> & Hd & Hv); [by apply H|]. cbn [mbind option_bind].
    assert (Ha : pu_used pu !! phase_index Aqua = Some 1%nat) by (by apply H).
    destruct (H1 d Aqua Hd Ha) as (j & Hj & Ej & ->). cbn [mbind option_bind]. eexists. split; [done|]. split; [by rewrite insert_length|].
    intros p i Hp Hi. destruct (decide (p = Aqua)) as [->|Hne].
    + rewrite Ej in Hi. injection Hi as ->. rewrite list_lookup_insert by lia. done.
    + rewrite list_lookup_insert_ne; [rewrite (Hv p i Hp Hi); by destruct p|]. intros ->. apply Hne. by eapply (pk_inj _ Hpu).
  - exists [1; 1; 1]. split; [done|]. split; [done|]. intros p i Hp Hi. rewrite Ho by eauto. by destruct p.
  - exists [1; 1; 1]. split; [done|]. split; [done|]. intros p i Hp Hi. rewrite Ho by eauto. by destruct p.
  - exists [1; 1; 1]. split; [done|]. split; [done|]. intros p i Hp Hi. rewrite Ho by eauto. by destruct p.
Qed.
Lemma newc_rate rq d t : length d = 3%nat →
  (∀ p i, pu_used pu !! phase_index p = Some 1%nat → pu_pos pu !! phase_index p = Some i → d !! i = Some (if counted rq p then 1 else 0)) →
  controls_rate pu rq t (newc rq (rate_kind rq) d (pu_num pu) t).
Proof.
  intros Hd Hv. pose proof (pk_num _ Hpu). split; [done|]. split; [unfold newc, rate_sign; cbn [ac_target]; destruct rq; lra|].
  split; [cbn [newc ac_distr]; rewrite take_length; lia|]. intros p i Hp Hi. cbn [newc ac_distr]. rewrite lookup_take; [by apply Hv|].
  by eapply (pk_pos _ Hpu).
Qed.
Lemma enter1_controlled gci c w : (gci < Z.of_nat (length (aw_ctrls w)))%Z →
  controlled gci (enter1 gci c w).1 w (with_ctrls w (enter1 gci c w).2 (enter1 gci c w).1 : awell) c.
Proof.
  intros Hg. unfold controlled, enter1. destruct (decide (gci < 0)%Z); cbn [fst snd with_ctrls aw_type aw_depth aw_frac aw_perfs aw_name aw_ctrls aw_current].
  - split_and!; try done; [|lia]. rewrite Nat2Z.id, lookup_app_r, Nat.sub_diag by lia. done.
  - split_and!; try done; [|lia]. rewrite list_lookup_insert by lia. done.
Qed.

(** ** From targets to the distribution *)
Lemma share_total g t l : rsum g l ≠ 0 → rsum (λ lf : leaf, t * g lf / rsum g l) l = t.
Proof.
  intros HG. rewrite (rsum_ext _ (λ lf, (t / rsum g l) * g lf)) by (intros; field; done). rewrite rsum_scale. field. done.
Qed.
Lemma perform_distributed rq d g t (l : list (leaf * option R)) (a : list (awell * bool)) : let ls := map fst l in
  length d = 3%nat → (∀ p i, pu_used pu !! phase_index p = Some 1%nat → pu_pos pu !! phase_index p = Some i → d !! i = Some (if counted rq p then 1 else 0)) →
  fits a ls → ready pu rq g ls a →
  (∀ lf x, (lf, x) ∈ l → (g lf ≠ 0 → x = Some (t * g lf / rsum g ls)) ∧ (g lf = 0 → x = None ∨ x = Some 0)) →
  distributed pu rq g t ls (perform rq (rate_kind rq) d (pu_num pu) l a).1 a (perform rq (rate_kind rq) d (pu_num pu) l a).2.
Proof.
  intros ls Hd Hv [Hnd Hfit] [_ _ HG Hty] Hx.
  assert (Hnd' : NoDup (l_self ∘ fst <$> l)) by (rewrite list_fmap_compose; exact Hnd).
  split; [|split; [by apply share_total|]].
  - apply Forall2_same_length_lookup. split.
    { subst ls. clear. rewrite map_length. revert a. induction l as [|x l IH]; intros a; [done|]. cbn [perform]. destruct (perform1 _ _ _ _ x a) as [lf a1]. specialize (IH a1). destruct (perform _ _ _ _ l a1). cbn in *. by rewrite IH. }
    intros k lf lf' Hk Hk'. subst ls.
    change (map fst l) with (fst <$> l) in Hk. rewrite list_lookup_fmap in Hk. destruct (l !! k) as [[lf0 x]|] eqn:El; [|done]. cbn in Hk. injection Hk as ->.
    destruct (perform_leaf rq (rate_kind rq) d (pu_num pu) l a k _ Hnd' El) as [P1 P2]. rewrite Hk' in P1. injection P1 as ->. cbn [fst] in P2.
    assert (Hin : (lf, x) ∈ l) by (by eapply elem_of_list_lookup_2). destruct (Hx lf x Hin) as [X1 X2].
    assert (Hlf : lf ∈ map fst l) by (apply elem_of_list_In, in_map_iff; exists (lf, x); split; [done|by apply elem_of_list_In]).
    destruct (Hfit lf Hlf) as (w & cl & Ew & Hg). unfold answered.
    assert (Hlt : (l_self lf < length a)%nat) by (by eapply lookup_lt_Some).
    unfold perform1 in *. cbn [fst snd] in *. destruct x as [t'|].
    + rewrite Ew in P2 |- *. destruct (decide (aw_type w = wtype_of rq)) as [Ety|Ety].
      * pose proof (enter1_controlled (l_gci lf) (newc rq (rate_kind rq) d (pu_num pu) t') w Hg) as Hc.
        destruct (enter1 _ _ w) as [gci' cs]. cbn [fst snd] in *. rewrite list_lookup_insert in P2 by done.
        exists gci', w, (with_ctrls w cs gci'), cl. split_and!; try done.
        -- intros Hne. specialize (X1 Hne). injection X1 as ->. eexists. split; [exact Hc|]. by apply newc_rate.
        -- intros Hz. destruct (X2 Hz) as [|X2']; [done|]. injection X2' as ->. right. eexists. split; [exact Hc|]. by apply newc_rate.
      * cbn [fst snd] in *. exists (l_gci lf), w, w, cl. split_and!; try done; [by destruct lf|by rewrite P2| |by left].
        intros Hne. by destruct (Ety (Hty lf w cl Hlf Hne Ew)).
    + cbn [fst snd] in *. exists (l_gci lf), w, w, cl. split_and!; try done; [by destruct lf|by rewrite P2| |by left].
      intros Hne. by specialize (X1 Hne).
  - intros i Hi. apply perform_frame. rewrite list_fmap_compose. exact Hi.
Qed.
Lemma ready_askable rq g t (l : list (leaf * option R)) (a : list (awell * bool)) : let ls := map fst l in
  ready pu rq g ls a →
  (∀ lf x, (lf, x) ∈ l → (g lf ≠ 0 → x = Some (t * g lf / rsum g ls)) ∧ (g lf = 0 → x = None ∨ x = Some 0)) → Forall (askable rq a) l.
Proof.
  intros ls [_ _ _ Hty] Hx. apply Forall_forall. intros [lf x] Hin t' w cl Ht Ew Hne. cbn [fst snd] in *.
  destruct (Hx lf x Hin) as [X1 X2]. destruct (Req_EM_T (g lf) 0) as [Hz|Hz].
  - destruct (X2 Hz) as [->| ->]; [done|]. by injection Ht as <-.
  - destruct Hne. apply (Hty lf w cl); try done. apply elem_of_list_In, in_map_iff. exists (lf, x). split; [done|by apply elem_of_list_In].
Qed.

(** ** A forced control *)
Lemma forced_ok rq t n (W : wells) a : w_np W = pu_num pu → rel 0 W a → fits a (leaves n) → ready pu rq (guide rq) (leaves n) a →
  ∃ n' W' a', apply_control J pu rq t true n (W, []) = Some (n', (W', [])) ∧ rel 0 W' a' ∧ w_np W' = pu_num pu ∧
    strip rq n' = strip rq n ∧ distributed pu rq (guide rq) t (leaves n) (leaves n') a a'.
Proof.
  intros Hnp HR Hfit Hrd. destruct (control_of_ok rq (rd_request _ _ _ _ _ Hrd)) as (d & Hc & Hd & Hv).
  pose proof (targets_forced rq n (rd_nonneg _ _ _ _ _ Hrd) (rd_some _ _ _ _ _ Hrd) t) as Hx.
  pose proof (targets_leaves rq n t true) as El.
  destruct (apply_ok J pu rq (rate_kind rq) d Hc Hd (pu_num pu) (pk_num _ Hpu) n t true W a HR Hnp) as (n' & W' & E & R' & L' & S' & N').
  { apply Forall_forall. intros lf Hlf. destruct (ft_well _ _ Hfit lf Hlf) as (w & cl & H1 & H2). by exists w, cl. }
  { eapply (ready_askable rq (guide rq) t); rewrite El; done. }
  exists n', W', (perform rq (rate_kind rq) d (pu_num pu) (targets rq t true n) a).2. split_and!; try done.
  rewrite L'. rewrite <- El at 1. apply perform_distributed; rewrite ?El; done.
Qed.

(** ** A control that is not forced *)
Lemma shared_leaves rq G T ch : map fst (shared_targets rq G T ch) = concat (map leaves ch).
Proof.
  unfold shared_targets. rewrite concat_map, map_map. apply concat_map_ext. apply Forall_forall. intros c _. apply targets_leaves.
Qed.
Lemma shared_ok rq T ps sp ch (W : wells) a : let n := Group ps sp ch in
  w_np W = pu_num pu → rel 0 W a → fits a (leaves n) → ready pu rq (group_guide rq) (leaves n) a → Forall (obedient rq) ch →
  ∃ ch' W' a', share_out J pu rq (guide_rate rq true n) T ch (W, []) = Some (ch', (W', [])) ∧ rel 0 W' a' ∧ w_np W' = pu_num pu ∧
    map (strip rq) ch' = map (strip rq) ch ∧ distributed pu rq (group_guide rq) T (leaves n) (leaves (Group ps sp ch')) a a' ∧ grown a a' ∧
    (∀ ps sp self gci shut, Well ps sp self gci shut ∈ ch → is_grup rq ps sp = false → is_none rq ps sp = false →
      Leaf ps sp self gci shut ∈ leaves (Group ps sp ch') ∧ a' !! self = a !! self).
Proof.
  intros n Hnp HR Hfit Hrd Hob. destruct (control_of_ok rq (rd_request _ _ _ _ _ Hrd)) as (d & Hc & Hd & Hv).
  pose proof (rd_some _ _ _ _ _ Hrd) as HG. rewrite group_guide_sum. set (G := rsum (group_guide rq) (leaves n)) in *.
  pose proof (shared_leaves rq G T ch) as El.
  assert (Hx : ∀ lf x, (lf, x) ∈ shared_targets rq G T ch → (group_guide rq lf ≠ 0 → x = Some (T * group_guide rq lf / G)) ∧ (group_guide rq lf = 0 → x = None ∨ x = Some 0)).
  { intros lf x Hin. unfold shared_targets in Hin. apply elem_of_list_In, in_concat in Hin as (l & Hl & Hin). apply in_map_iff in Hl as (c & <- & Hin').
    apply elem_of_list_In in Hin. apply elem_of_list_In in Hin'. rewrite Forall_forall in Hob. apply (targets_obedient rq c G T); try done; [by apply Hob|].
    intros lf' Hlf'. apply (rd_nonneg _ _ _ _ _ Hrd). by eapply elem_of_leaves. }
  destruct (share_out_ok J pu rq (rate_kind rq) d Hc Hd (pu_num pu) (pk_num _ Hpu) G T ch HG W a HR Hnp) as (ch' & W' & E & R' & L' & S' & N').
  { apply Forall_forall. intros lf Hlf. destruct (ft_well _ _ Hfit lf Hlf) as (w & cl & H1 & H2). by exists w, cl. }
  { eapply (ready_askable rq (group_guide rq) T); rewrite El; done. }
  exists ch', W', (perform rq (rate_kind rq) d (pu_num pu) (shared_targets rq G T ch) a).2. split_and!; try done.
  - pose proof (perform_distributed rq d (group_guide rq) T (shared_targets rq G T ch) a Hd Hv) as P. cbn zeta in P. rewrite El in P.
    cbn [leaves]. rewrite L'. apply P; [exact Hfit|exact Hrd|exact Hx].
  - by apply (grown_perform rq (rate_kind rq) d Hd (pu_num pu) (pk_num _ Hpu)).
  - intros ps1 sp1 self gci shut Hin H1 H2.
    assert (Hin' : (Leaf ps1 sp1 self gci shut, None) ∈ shared_targets rq G T ch).
    { unfold shared_targets. apply elem_of_list_In, in_concat. eexists. split; [apply in_map; apply elem_of_list_In; exact Hin|].
      rewrite targets_own by done. by left. }
    apply elem_of_list_lookup in Hin' as [k Hk].
    destruct (perform_leaf rq (rate_kind rq) d (pu_num pu) (shared_targets rq G T ch) a k _ ltac:(rewrite list_fmap_compose; change (fst <$> shared_targets rq G T ch) with (map fst (shared_targets rq G T ch)); rewrite El; apply (ft_nodup _ _ Hfit)) Hk) as [P1 P2].
    cbn [leaves]. rewrite L'. split; [|exact P2]. by eapply elem_of_list_lookup_2.
Qed.
End distribution.

(** ** Trees *)
Section tree.
Context {name_t : Type}.
Notation awell := (awell R name_t).
Notation wells := (wells R name_t).
Variable J : junk R name_t.
Variable pu : phase_usage.
Hypothesis Hpu : pu_ok pu.
Variable rate : pspec → ispec → option (request * R).
Variables open left : pspec → ispec → Prop.
Variable F : node → wells * list bool → option (node * (wells * list bool)).
Definition go_tree := fix go (l : list node) (s : wells * list bool) : option (list node * (wells * list bool)) :=
  match l with
  | [] => Some ([], s)
  | c :: l => '(c, s) ← F c s; '(l, s) ← go l s; Some (c :: l, s)
  end.
Hypothesis F_well : ∀ ps sp self gci shut s, F (Well ps sp self gci shut) s = Some (Well ps sp self gci shut, s).
Hypothesis F_rate : ∀ ps sp ch rq t s, rate ps sp = Some (rq, t) → guide_rate rq true (Group ps sp ch) ≠ 0 →
  F (Group ps sp ch) s = ('(ch', s) ← share_out J pu rq (guide_rate rq true (Group ps sp ch)) t ch s; Some (Group ps sp ch', s)).
Hypothesis F_left : ∀ ps sp ch s, left ps sp → F (Group ps sp ch) s = Some (Group ps sp ch, s).
Hypothesis F_open : ∀ ps sp ch s, open ps sp → F (Group ps sp ch) s = ('(ch', s) ← go_tree ch s; Some (Group ps sp ch', s)).

Lemma answered_ext rq g t l lf lf' (a a' b b' : list (awell * bool)) : b !! l_self lf = a !! l_self lf → b' !! l_self lf = a' !! l_self lf →
  answered pu rq g t l a a' lf lf' → answered pu rq g t l b b' lf lf'.
Proof. intros E1 E2 (gci' & w & w' & cl & H). exists gci', w, w', cl. by rewrite E1, E2. Qed.
Lemma outcome_ext n : ∀ n' (a a' b b' : list (awell * bool)),
  (∀ lf, lf ∈ leaves n → b !! l_self lf = a !! l_self lf ∧ b' !! l_self lf = a' !! l_self lf) →
  outcome pu rate open left a a' n n' → outcome pu rate open left b b' n n'.
Proof.
  induction n as [ps sp self gci shut|ps sp ch IH] using node_rect'; intros n' a a' b b' Hb H; inversion H; subst.
  - apply oc_well. destruct (Hb (Leaf ps sp self gci shut)) as [E1 E2]; [by apply elem_of_list_singleton|]. cbn in E1, E2. congruence.
  - eapply oc_rate; try done. apply Forall2_same_length_lookup. match goal with H : Forall2 _ _ _ |- _ => apply Forall2_same_length_lookup in H as [Hl Hk] end.
    split; [done|]. intros k lf lf' H1 H2. destruct (Hb lf) as [E1 E2]; [by eapply elem_of_list_lookup_2|]. eapply answered_ext; [exact E1|exact E2|]. by eapply Hk.
  - apply oc_left; [done|]. intros lf Hlf. destruct (Hb lf Hlf) as [-> ->]. auto.
  - apply oc_open; [done|]. match goal with H : Forall2 _ _ _ |- _ => apply Forall2_same_length_lookup in H as [Hl Hk] end.
    apply Forall2_same_length_lookup. split; [done|]. intros k c c' H1 H2. rewrite Forall_forall in IH.
    assert (Hc : c ∈ ch) by (by eapply elem_of_list_lookup_2). apply (IH c Hc c' a a'); [|by eapply Hk]. intros lf Hlf. apply Hb. by eapply elem_of_leaves.
Qed.
Lemma fits_grown (a a' : list (awell * bool)) l : grown a a' → fits a l → fits a' l.
Proof. intros Hg [H1 H2]. split; [done|]. intros lf Hlf. destruct (H2 lf Hlf) as (w & cl & E & H). destruct (Hg _ _ _ E) as (w' & E' & _ & L). exists w', cl. split; [done|lia]. Qed.
Lemma ready_grown (a a' : list (awell * bool)) rq g l : grown a a' → fits a l → ready pu rq g l a → ready pu rq g l a'.
Proof.
  intros Hg [_ Hf] [H1 H2 H3 H4]. split; try done. intros lf w cl Hlf Hne E. destruct (Hf lf Hlf) as (w0 & cl0 & E0 & _).
  destruct (Hg _ _ _ E0) as (w1 & E1 & T1 & _). rewrite E in E1. injection E1 as -> ->. rewrite T1. by eapply H4.
Qed.
Lemma fits_child (a : list (awell * bool)) ps sp ch c : c ∈ ch → fits a (leaves (Group ps sp ch)) → fits a (leaves c).
Proof.
  intros Hc [H1 H2]. split; [|intros lf Hlf; apply H2; by eapply elem_of_leaves]. cbn [leaves] in H1. clear H2.
  induction ch as [|y ch IH]; [by apply elem_of_nil in Hc|]. cbn [map concat] in H1. rewrite fmap_app in H1. apply NoDup_app in H1 as (N1 & _ & N2).
  apply elem_of_cons in Hc as [->|Hc]; auto.
Qed.
Lemma governed_grown n : ∀ a a' : list (awell * bool), grown a a' → fits a (leaves n) → governed pu rate open left a n → governed pu rate open left a' n.
Proof.
  induction n as [ps sp self gci shut|ps sp ch IH] using node_rect'; intros a a' Hg Hf H; inversion H; subst.
  - constructor.
  - eapply gv_rate; try done. by eapply ready_grown.
  - by apply gv_left.
  - apply gv_open; [done|]. rewrite Forall_forall in IH. match goal with H : Forall _ ch |- _ => rewrite Forall_forall in H; rename H into HF end.
    apply Forall_forall. intros c Hc. apply (IH c Hc a); [done|by eapply fits_child|by apply HF].
Qed.

Lemma tree_ok n : ∀ (W : wells) a, rel 0 W a → w_np W = pu_num pu → fits a (leaves n) → governed pu rate open left a n →
  ∃ n' W' a', F n (W, []) = Some (n', (W', [])) ∧ rel 0 W' a' ∧ w_np W' = pu_num pu ∧ outcome pu rate open left a a' n n' ∧
    grown a a' ∧ ∀ i, i ∉ (l_self <$> leaves n) → a' !! i = a !! i.
Proof.
  induction n as [ps sp self gci shut|ps sp ch IH] using node_rect'; intros W a HR Hn Hf Hgv; inversion Hgv; subst.
  - rewrite F_well. eexists _, W, a. split_and!; try done; [by apply oc_well|apply grown_refl].
  - destruct (shared_ok J pu Hpu rq t ps sp ch W a) as (ch' & W' & a' & E & R' & N' & S' & (D1 & D2 & D3) & Hg & _); try done.
    rewrite (F_rate ps sp ch rq t) by (try done; rewrite group_guide_sum; by eapply rd_some). rewrite E. cbn [mbind option_bind].
    eexists _, W', a'. split_and!; try done. by eapply oc_rate.
  - rewrite F_left by done. eexists _, W, a. split_and!; try done; [by apply oc_left|apply grown_refl].
  - rewrite F_open by done.
    assert (∃ ch' W' a', go_tree ch (W, []) = Some (ch', (W', [])) ∧ rel 0 W' a' ∧ w_np W' = pu_num pu ∧ Forall2 (outcome pu rate open left a a') ch ch' ∧
      grown a a' ∧ ∀ i, i ∉ (l_self <$> concat (map leaves ch)) → a' !! i = a !! i) as (ch' & W' & a' & E & R' & N' & O' & G' & Fr').
    { clear Hgv. match goal with H : open _ _ |- _ => clear H end. match goal with H : Forall (governed _ _ _ _ _) ch |- _ => rename H into HF end.
      cbn [leaves] in Hf. revert W a HR Hn Hf HF. induction IH as [|c ch Hc _ IHl]; intros W a HR Hn Hf HF.
      - exists [], W, a. split_and!; try done. apply grown_refl.
      - apply Forall_cons in HF as [HF1 HF2]. assert (Hf1 : fits a (leaves c)) by (apply (fits_child a ps sp (c :: ch)); [by left|exact Hf]).
        assert (Hf2 : fits a (concat (map leaves ch))).
        { destruct Hf as [N1 N2]. cbn [map concat] in N1, N2. rewrite fmap_app in N1. apply NoDup_app in N1 as (_ & _ & N1). split; [done|].
          intros lf Hlf. apply N2. apply elem_of_app. by right. }
        destruct (Hc W a HR Hn Hf1 HF1) as (c' & W1 & a1 & E1 & R1 & N1 & O1 & G1 & Fr1).
        destruct (IHl W1 a1 R1 N1) as (ch' & W2 & a2 & E2 & R2 & N2 & O2 & G2 & Fr2).
        { by eapply fits_grown. }
        { rewrite Forall_forall in HF2. apply Forall_forall. intros x Hx. apply (governed_grown x a); [done| |by apply HF2]. by apply (fits_child a ps sp ch). }
        change (go_tree (c :: ch) (W, [])) with ('(c, s) ← F c (W, []); '(l, s) ← go_tree ch s; Some (c :: l, s)).
        rewrite E1. cbn [mbind option_bind]. rewrite E2. cbn [mbind option_bind]. exists (c' :: ch'), W2, a2. split_and!; try done.
        + destruct Hf as [Nd _]. cbn [map concat] in Nd. rewrite fmap_app in Nd. apply NoDup_app in Nd as (_ & Nd & _).
          constructor.
          * apply (outcome_ext c c' a a1); [|done]. intros lf Hlf. split; [done|]. apply Fr2. apply Nd. apply elem_of_list_fmap. by exists lf.
          * apply Forall2_same_length_lookup in O2 as [Ol Ok]. apply Forall2_same_length_lookup. split; [done|]. intros k x x' H1 H2.
            apply (outcome_ext x x' a1 a2); [|by eapply Ok]. intros lf Hlf. split; [|done]. symmetry. apply Fr1. intros Hin.
            apply (Nd _ Hin). apply elem_of_list_fmap. exists lf. split; [done|]. apply elem_of_list_In, in_concat. exists (leaves x). split; [|by apply elem_of_list_In].
            apply in_map, elem_of_list_In. by eapply elem_of_list_lookup_2.
        + by eapply grown_trans.
        + intros i Hi. cbn [map concat] in Hi. rewrite fmap_app, not_elem_of_app in Hi. destruct Hi. rewrite Fr2, Fr1; done. }
    rewrite E. cbn [mbind option_bind]. eexists _, W', a'. split_and!; try done. by apply oc_open.
Qed.
End tree.

Section trees.
Context {name_t : Type}.
Notation wells := (wells R name_t).
Variable J : junk R name_t.
Variable pu : phase_usage.
Hypothesis Hpu : pu_ok pu.
Lemma production_ok n (W : wells) a : rel 0 W a → w_np W = pu_num pu → fits a (leaves n) →
  governed pu production_rate production_open production_left a n →
  ∃ n' W' a', apply_prod_controls J pu n (W, []) = Some (n', (W', [])) ∧ rel 0 W' a' ∧ w_np W' = pu_num pu ∧
    outcome pu production_rate production_open production_left a a' n n' ∧ grown a a' ∧ ∀ i, i ∉ (l_self <$> leaves n) → a' !! i = a !! i.
Proof.
  apply (tree_ok J pu Hpu); try done.
  - intros ps sp ch rq t s E HG. cbn [apply_prod_controls]. unfold production_rate in E.
    destruct (ps_mode ps) eqn:Em; try done; injection E as <- <-; (destruct (Req_EM_T _ 0); [done|]); cbn [ptarget mbind option_bind]; by destruct (share_out _ _ _ _ _ _ _) as [[? ?]|].
  - intros ps sp ch s [E|E]; cbn [apply_prod_controls]; rewrite E; reflexivity.
Qed.
Lemma injection_ok n (W : wells) a : rel 0 W a → w_np W = pu_num pu → fits a (leaves n) →
  governed pu injection_rate injection_open injection_left a n →
  ∃ n' W' a', apply_inj_controls J pu n (W, []) = Some (n', (W', [])) ∧ rel 0 W' a' ∧ w_np W' = pu_num pu ∧
    outcome pu injection_rate injection_open injection_left a a' n n' ∧ grown a a' ∧ ∀ i, i ∉ (l_self <$> leaves n) → a' !! i = a !! i.
Proof.
  apply (tree_ok J pu Hpu); try done.
  - intros ps sp ch rq t s E HG. cbn [apply_inj_controls]. unfold injection_rate in E.
    destruct (is_mode sp) eqn:Em; try done; injection E as <- <-; cbn [itarget mbind option_bind]; by destruct (share_out _ _ _ _ _ _ _) as [[? ?]|].
  - intros ps sp ch s [E|E]; cbn [apply_inj_controls]; rewrite E; reflexivity.
  - intros ps sp ch s [E|E]; cbn [apply_inj_controls]; rewrite E; reflexivity.
Qed.
End trees.
