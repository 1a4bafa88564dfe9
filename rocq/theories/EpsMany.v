(** Saturation functions of a reservoir (C64): relative permeabilities, capillary
    pressures and bounds of many points. *)
From Coq Require Import Reals Lra Psatz.
From Verif Require Import Base LoopModel LoopProof TableModel TofSpec MiscSpec PhaseModel KrModel KrSpec KrProof KrProps EpsModel EpsSpec EpsPoints.
Local Open Scope R_scope.
Unset Default Proof Using.

Lemma bd0 : bool_decide (0%nat ≠ 0%nat) = false. Proof. done. Qed.
Lemma bd1 : bool_decide (1%nat ≠ 0%nat) = true. Proof. done. Qed.
Ltac norm E := cbn in E |- *; repeat (rewrite ?bd0, ?bd1 in E; rewrite ?bd0, ?bd1; evin E; cbn in E |- *); both E.
Lemma eval_pc_local F w g s pc v : phases F w g → let np := pu_num (sf_pu F) in length s = np → eval_pc F s (replicate np 0) = Some v →
  length v = np ∧ ∀ rest, (np ≤ length pc)%nat → eval_pc F (s ++ rest) pc = Some (v ++ drop np pc).
Proof.
  intros HP np Hs E. subst np. unfold eval_pc, used, pos in *.
  destruct (phases_cases _ _ _ HP) as [(-> & -> & Epu)|[(-> & -> & Epu)|(-> & -> & Epu)]]; rewrite Epu in *; cbn [pu_num] in *; cbn [replicate] in E.
  - destruct s as [|a [|b [|c [|]]]]; try done. norm E. injection E as <-. split; [done|]. intros rest Hk. rewrite ?bd0, ?bd1. destruct (list3 pc Hk) as (k0 & k1 & k2 & rk & ->). finish.
  - destruct s as [|a [|b [|]]]; try done. norm E. injection E as <-. split; [done|]. intros rest Hk. rewrite ?bd0, ?bd1. destruct (list2 pc Hk) as (k0 & k1 & rk & ->). finish.
  - destruct s as [|a [|b [|]]]; try done. norm E. injection E as <-. split; [done|]. intros rest Hk. rewrite ?bd0, ?bd1. destruct (list2 pc Hk) as (k0 & k1 & rk & ->). finish.
Qed.
Lemma eval_pc_deriv_local F w g s pc d v u : phases F w g → let np := pu_num (sf_pu F) in length s = np → eval_pc_deriv F s (replicate np 0) (replicate (np * np) 0) = Some (v, u) →
  length v = np ∧ length u = (np * np)%nat ∧ ∀ rest, (np ≤ length pc)%nat → (np * np ≤ length d)%nat → eval_pc_deriv F (s ++ rest) pc d = Some (v ++ drop np pc, u ++ drop (np * np) d).
Proof.
  intros HP np Hs E. subst np. unfold eval_pc_deriv, used, pos, fill0 in *.
  destruct (phases_cases _ _ _ HP) as [(-> & -> & Epu)|[(-> & -> & Epu)|(-> & -> & Epu)]]; rewrite Epu in *; cbn [pu_num] in *; cbn [replicate Nat.mul Nat.add] in E.
  - destruct s as [|a [|b [|c [|]]]]; try done. norm E. injection E as <- <-. split; [done|]. split; [done|]. intros rest Hk Hd. destruct (list3 pc Hk) as (k0 & k1 & k2 & rk & ->). destruct (list9 d Hd) as (e0 & e1 & e2 & e3 & e4 & e5 & e6 & e7 & e8 & re & ->). finish.
  - destruct s as [|a [|b [|]]]; try done. norm E. injection E as <- <-. split; [done|]. split; [done|]. intros rest Hk Hd. destruct (list2 pc Hk) as (k0 & k1 & rk & ->). destruct (list4 d Hd) as (e0 & e1 & e2 & e3 & re & ->). finish.
  - destruct s as [|a [|b [|]]]; try done. norm E. injection E as <- <-. split; [done|]. split; [done|]. intros rest Hk Hd. destruct (list2 pc Hk) as (k0 & k1 & rk & ->). destruct (list4 d Hd) as (e0 & e1 & e2 & e3 & re & ->). finish.
Qed.
(** With scaling: [ss] is a local array, its contents do not matter. *)
Lemma relperm_eps_local P F c s kr ss ss' v : func_for_cell P c = Some F → sp_pu P = sf_pu F → phases F true false → length s = 2%nat → (2 ≤ length ss)%nat → (2 ≤ length ss')%nat →
  relperm_eps Simple P ss s c [0; 0] false = Some v →
  length v = 2%nat ∧ ∀ rest, (2 ≤ length kr)%nat → relperm_eps Simple P ss' (s ++ rest) c kr false = Some (v ++ drop 2 kr).
Proof.
  intros HF Hpu HP Hs H1 H2 E. destruct s as [|a [|b [|]]]; try done. destruct (list2 ss H1) as (q0 & q1 & rq & ->). destruct (list2 ss' H2) as (t0 & t1 & rt & ->).
  assert (Epu : sf_pu F = PhaseUsage 2 [1; 1; 0]%nat [0; 1; 2]%nat). { destruct (phases_cases _ _ _ HP) as [(_ & ? & _)|[(_ & _ & ?)|(? & _)]]; done. }
  assert (EK : ∀ x y r r' k0 k1 rk, eval_kr Simple F (x :: y :: r) (k0 :: k1 :: rk) = (v ← eval_kr Simple F (x :: y :: r') [0; 0]; Some (v ++ rk))).
  { intros. unfold eval_kr, two, used, pos. rewrite Epu. cbn. destruct (tv _ _); cbn; [|done]. by destruct (tv _ _). }
  assert (EL : ∀ x y r v, eval_kr Simple F (x :: y :: r) [0; 0] = Some v → ∃ p q, v = [p; q]).
  { intros x y r v' H. unfold eval_kr, two, used, pos in H. rewrite Epu in H. both H. injection H as <-. eauto. }
  unfold relperm_eps in *. rewrite Hpu, Epu in *. cbn [pu_pos phase_index lookup list_lookup mbind option_bind app] in *. rewrite HF in *. cbn [mbind option_bind lookup list_lookup] in *.
  destruct (sf_smax F !! 0%nat) as [w_max|]; cbn [mbind option_bind] in *; [|discriminate E]. destruct (sf_smax F !! 1%nat) as [o_max|]; cbn [mbind option_bind] in *; [|discriminate E].
  destruct (scale_sat _ _ _ _ _ _ _ _ a) as [x|]; cbn [mbind option_bind] in *; [|discriminate E]. rewrite upd_Some in * by (cbn; lia). cbn [mbind option_bind] in *.
  destruct (scale_sat _ _ _ _ _ _ _ _ b) as [y|]; cbn [mbind option_bind] in *; [|discriminate E]. rewrite upd_Some in * by (cbn; lia). cbn [mbind option_bind insert list_insert] in *.
  rewrite (EK x y rq rt 0 0 []) in E. destruct (eval_kr Simple F (x :: y :: rt) [0; 0]) as [v'|] eqn:EV; cbn [mbind option_bind] in *; [|discriminate E]. destruct (EL _ _ _ _ EV) as (p & q & ->). cbn [app lookup list_lookup mbind option_bind] in E.
  destruct (scale_val _ _ _ _ _ _ _ _ _ _ _ _ _ a p) as [p'|] eqn:EP; cbn [mbind option_bind] in *; [|discriminate E]. rewrite upd_Some in E by (cbn; lia). cbn [mbind option_bind insert list_insert lookup list_lookup] in E.
  destruct (scale_val _ _ _ _ _ _ _ _ _ _ _ _ _ b q) as [q'|] eqn:EQ; cbn [mbind option_bind] in *; [|discriminate E]. rewrite upd_Some in E by (cbn; lia). cbn [insert list_insert] in E. injection E as <-. split; [done|].
  intros rest Hk. destruct (list2 kr Hk) as (k0 & k1 & rk & ->). rewrite (EK x y rt rt k0 k1 rk), EV. cbn [mbind option_bind app lookup list_lookup]. rewrite EP. cbn [mbind option_bind]. rewrite upd_Some by (cbn; lia). cbn [mbind option_bind insert list_insert lookup list_lookup]. rewrite EQ. cbn [mbind option_bind]. rewrite upd_Some by (cbn; lia). done.
Qed.

Ltac exten E := match goal with |- context [for_loop ?n 0 ?G ?l] => match type of E with _ = ?r =>
  assert (for_loop n 0 G l = r) as ->; [rewrite <- E; apply for_loop_ext; intros ? ? _; match goal with |- (?a ≫= _) = _ => destruct a end; cbn [mbind option_bind]; [try done; by destruct (func_for_cell _ _)|done]|done] end end.
Ltac exten2 E := match goal with |- context [for_loop ?n 0 ?G ?l] => match type of E with _ = ?r =>
  assert (for_loop n 0 G l = r) as ->; [rewrite <- E; apply for_loop_ext; intros ? [? ?] _; match goal with |- (?a ≫= _) = _ => destruct a end; cbn [mbind option_bind]; [try done; by destruct (func_for_cell _ _)|done]|done] end end.
(** ** C64: many points *)
(** The cells of the points, with their functions. *)
Definition at_point (P : satprops) (cells : list nat) (i : nat) (c : nat) (F : satfunc) (w g : bool) : Prop := cells !! i = Some c ∧ func_for_cell P c = Some F ∧ sp_pu P = sf_pu F ∧ phases F w g.

(** Each point gets what the function of its cell gives for its saturations, and
    nothing else is written. *)
Theorem C64_relperm m P ss n s cells kr w g v (np := pu_num (sp_pu P)) : sp_do_eps P = false → (np * n ≤ length s)%nat → (np * n ≤ length kr)%nat →
  (∀ i, (i < n)%nat → ∃ c F, at_point P cells i c F w g ∧ eval_kr m F (block np i s) (replicate np 0) = Some (v i)) →
  ∃ kr', relperm m P ss n s cells kr None = Some (kr', None) ∧ length kr' = length kr ∧ drop (np * n) kr' = drop (np * n) kr ∧ ∀ i, (i < n)%nat → block np i kr' = v i.
Proof.
  intros Heps Hs Hk H. unfold relperm. fold np. rewrite Heps.
  destruct (loop1 n np (λ i k, c ← cells !! i; F ← func_for_cell P c; eval_kr m F (drop (np * i) s) k) v kr Hk) as (kr' & E & H').
  - intros i Hi. destruct (H i Hi) as (c & F & (Hc & HF & Hpu & HP) & E). unfold np in E. rewrite Hpu in E. fold np in Hs.
    assert (L : length (block np i s) = np) by (by apply (block_length np i n)). unfold np in L. rewrite Hpu in L.
    split. { destruct (eval_kr_local m F w g _ [] _ HP L E) as [L' _]. unfold np. by rewrite Hpu. }
    intros k Hkl. rewrite Hc. cbn [mbind option_bind]. rewrite HF. cbn [mbind option_bind]. rewrite (drop_block np i n s) by done. unfold np in *. rewrite Hpu in *. by apply (eval_kr_local m F w g).
  - exists kr'. split; [|done]. exten E.
Qed.
(** The same with derivatives. *)
Theorem C64_relperm_deriv m P ss n s cells kr d w g v u (np := pu_num (sp_pu P)) : sp_do_eps P = false → (np * n ≤ length s)%nat → (np * n ≤ length kr)%nat → (np * np * n ≤ length d)%nat →
  (∀ i, (i < n)%nat → ∃ c F, at_point P cells i c F w g ∧ eval_kr_deriv m F (block np i s) (replicate np 0) (replicate (np * np) 0) = Some (v i, u i)) →
  ∃ kr' d', relperm m P ss n s cells kr (Some d) = Some (kr', Some d') ∧
    (length kr' = length kr ∧ drop (np * n) kr' = drop (np * n) kr ∧ ∀ i, (i < n)%nat → block np i kr' = v i) ∧
    (length d' = length d ∧ drop (np * np * n) d' = drop (np * np * n) d ∧ ∀ i, (i < n)%nat → block (np * np) i d' = u i).
Proof.
  intros Heps Hs Hk Hd H. unfold relperm. fold np. rewrite Heps.
  destruct (loop2 n np (np * np) (λ i k e, c ← cells !! i; F ← func_for_cell P c; eval_kr_deriv m F (drop (np * i) s) k e) v u kr d Hk Hd) as (kr' & d' & E & H').
  - intros i Hi. destruct (H i Hi) as (c & F & (Hc & HF & Hpu & HP) & E). unfold np in E. rewrite Hpu in E. fold np in Hs.
    assert (L : length (block np i s) = np) by (by apply (block_length np i n)). unfold np in L. rewrite Hpu in L.
    destruct (eval_kr_deriv_local m F w g _ [] [] _ _ HP L E) as (L1 & L2 & _). unfold np. rewrite Hpu. split; [done|]. split; [done|].
    intros k e Hkl Hel. rewrite Hc. cbn [mbind option_bind]. rewrite HF. cbn [mbind option_bind]. unfold np in Hs. rewrite Hpu in Hs. rewrite (drop_block _ i n s) by done. by apply (eval_kr_deriv_local m F w g).
  - exists kr', d'. split; [|done]. exten2 E.
Qed.
(** The same with end-point scaling; derivatives are refused. *)
Theorem C64_relperm_scaled P ss n s cells kr v : sp_do_eps P = true → (2 ≤ length ss)%nat → (2 * n ≤ length s)%nat → (2 * n ≤ length kr)%nat →
  (∀ i, (i < n)%nat → ∃ c F ss', at_point P cells i c F true false ∧ (2 ≤ length ss')%nat ∧ relperm_eps Simple P ss' (block 2 i s) c [0; 0] false = Some (v i)) →
  (0 < n)%nat →
  (∃ kr', relperm Simple P ss n s cells kr None = Some (kr', None) ∧ length kr' = length kr ∧ drop (2 * n) kr' = drop (2 * n) kr ∧ ∀ i, (i < n)%nat → block 2 i kr' = v i) ∧
  ∀ d, relperm Simple P ss n s cells kr (Some d) = None.
Proof.
  intros Heps Hss Hs Hk H Hn. destruct (H 0%nat Hn) as (c & F & _ & (Hc & _ & Hpu & HP) & _). unfold relperm. rewrite Heps.
  assert (pu_num (sp_pu P) = 2%nat) as ->. { rewrite Hpu. destruct (phases_cases _ _ _ HP) as [(_ & ? & _)|[(_ & _ & ->)|(? & _)]]; done. }
  split.
  - destruct (loop1 n 2 (λ i k, c ← cells !! i; relperm_eps Simple P ss (drop (2 * i) s) c k false) v kr Hk) as (kr' & E & H').
    + intros i Hi. destruct (H i Hi) as (c' & F' & ss' & (Hc' & HF & Hpu' & HP') & Hss' & E). assert (L : length (block 2 i s) = 2%nat) by (by apply (block_length 2 i n)).
      split; [by destruct (relperm_eps_local P F' c' _ [] ss' ss _ HF Hpu' HP' L Hss' Hss E)|]. intros k Hkl. rewrite Hc'. cbn [mbind option_bind]. rewrite (drop_block 2 i n s) by done. by apply (relperm_eps_local P F' c' _ k ss' ss _ HF Hpu' HP' L Hss' Hss E).
    + exists kr'. split; [|done]. exten E.
  - intros d. destruct n as [|n]; [lia|]. cbn [for_loop]. rewrite Hc. cbn [mbind option_bind].
    assert (∀ s k, relperm_eps Simple P ss s c k true = None) as ->; [|done]. intros s' k. unfold relperm_eps. repeat (match goal with |- (?a ≫= _) = None => destruct a end; cbn [mbind option_bind]; [|reflexivity]). reflexivity.
Qed.
(** Capillary pressures. *)
Theorem C64_cap_press P n s cells pc w g v (np := pu_num (sp_pu P)) : (np * n ≤ length s)%nat → (np * n ≤ length pc)%nat →
  (∀ i, (i < n)%nat → ∃ c F, at_point P cells i c F w g ∧ eval_pc F (block np i s) (replicate np 0) = Some (v i)) →
  ∃ pc', cap_press P n s cells pc None = Some (pc', None) ∧ length pc' = length pc ∧ drop (np * n) pc' = drop (np * n) pc ∧ ∀ i, (i < n)%nat → block np i pc' = v i.
Proof.
  intros Hs Hk H. unfold cap_press. fold np.
  destruct (loop1 n np (λ i k, c ← cells !! i; F ← func_for_cell P c; eval_pc F (drop (np * i) s) k) v pc Hk) as (pc' & E & H').
  - intros i Hi. destruct (H i Hi) as (c & F & (Hc & HF & Hpu & HP) & E). unfold np in E. rewrite Hpu in E. fold np in Hs.
    assert (L : length (block np i s) = np) by (by apply (block_length np i n)). unfold np in L. rewrite Hpu in L.
    split. { destruct (eval_pc_local F w g _ [] _ HP L E) as [L' _]. unfold np. by rewrite Hpu. }
    intros k Hkl. rewrite Hc. cbn [mbind option_bind]. rewrite HF. cbn [mbind option_bind]. rewrite (drop_block np i n s) by done. unfold np in *. rewrite Hpu in *. by apply (eval_pc_local F w g).
  - exists pc'. split; [|done]. exten E.
Qed.
Theorem C64_cap_press_deriv P n s cells pc d w g v u (np := pu_num (sp_pu P)) : (np * n ≤ length s)%nat → (np * n ≤ length pc)%nat → (np * np * n ≤ length d)%nat →
  (∀ i, (i < n)%nat → ∃ c F, at_point P cells i c F w g ∧ eval_pc_deriv F (block np i s) (replicate np 0) (replicate (np * np) 0) = Some (v i, u i)) →
  ∃ pc' d', cap_press P n s cells pc (Some d) = Some (pc', Some d') ∧
    (length pc' = length pc ∧ drop (np * n) pc' = drop (np * n) pc ∧ ∀ i, (i < n)%nat → block np i pc' = v i) ∧
    (length d' = length d ∧ drop (np * np * n) d' = drop (np * np * n) d ∧ ∀ i, (i < n)%nat → block (np * np) i d' = u i).
Proof.
  intros Hs Hk Hd H. unfold cap_press. fold np.
  destruct (loop2 n np (np * np) (λ i k e, c ← cells !! i; F ← func_for_cell P c; eval_pc_deriv F (drop (np * i) s) k e) v u pc d Hk Hd) as (pc' & d' & E & H').
  - intros i Hi. destruct (H i Hi) as (c & F & (Hc & HF & Hpu & HP) & E). unfold np in E. rewrite Hpu in E. fold np in Hs.
    assert (L : length (block np i s) = np) by (by apply (block_length np i n)). unfold np in L. rewrite Hpu in L.
    destruct (eval_pc_deriv_local F w g _ [] [] _ _ HP L E) as (L1 & L2 & _). unfold np. rewrite Hpu. split; [done|]. split; [done|].
    intros k e Hkl Hel. rewrite Hc. cbn [mbind option_bind]. rewrite HF. cbn [mbind option_bind]. unfold np in Hs. rewrite Hpu in Hs. rewrite (drop_block _ i n s) by done. by apply (eval_pc_deriv_local F w g).
  - exists pc', d'. split; [|done]. exten2 E.
Qed.
(** The bounds of the saturations. *)
Theorem C64_sat_range P n cells smin smax (np := pu_num (sp_pu P)) : (np * n ≤ length smin)%nat → (np * n ≤ length smax)%nat →
  (∀ i, (i < n)%nat → ∃ c F, cells !! i = Some c ∧ func_for_cell P c = Some F ∧ (np ≤ length (sf_smin F))%nat ∧ (np ≤ length (sf_smax F))%nat) →
  ∃ smin' smax', sat_range P n cells smin smax = Some (smin', smax') ∧
    length smin' = length smin ∧ length smax' = length smax ∧ drop (np * n) smin' = drop (np * n) smin ∧ drop (np * n) smax' = drop (np * n) smax ∧
    ∀ i c F p, (i < n)%nat → (p < np)%nat → cells !! i = Some c → func_for_cell P c = Some F → smin' !! (np * i + p)%nat = sf_smin F !! p ∧ smax' !! (np * i + p)%nat = sf_smax F !! p.
Proof.
  intros L1 L2 H. unfold sat_range. fold np.
  set (Q := λ (k : nat) (st : list R * list R), length st.1 = length smin ∧ length st.2 = length smax ∧ (∀ j, (k ≤ j)%nat → st.1 !! j = smin !! j ∧ st.2 !! j = smax !! j) ∧
    ∀ i c F p, (i < n)%nat → (p < np)%nat → (np * i + p < k)%nat → cells !! i = Some c → func_for_cell P c = Some F → st.1 !! (np * i + p)%nat = sf_smin F !! p ∧ st.2 !! (np * i + p)%nat = sf_smax F !! p).
  destruct (for_loop_inv (λ k st, Q (np * k)%nat st) n 0 (λ i st, for_loop np 0 (λ p '(smin, smax), c ← cells !! i; F ← func_for_cell P c; a ← sf_smin F !! p; smin ← upd smin (np * i + p) a; b ← sf_smax F !! p; smax ← upd smax (np * i + p) b; Some (smin, smax)) st) (smin, smax)) as ([a b] & E & HQ).
  - split; [done|]. split; [done|]. split; [done|]. intros; lia.
  - intros i st Hi HQ. destruct (H i ltac:(lia)) as (c & F & Hc & HF & M1 & M2). assert (np * i + np ≤ np * n)%nat by nia.
    destruct (for_loop_inv (λ p st, Q (np * i + p)%nat st) np 0 (λ p '(smin, smax), c ← cells !! i; F ← func_for_cell P c; a ← sf_smin F !! p; smin ← upd smin (np * i + p) a; b ← sf_smax F !! p; smax ← upd smax (np * i + p) b; Some (smin, smax)) st) as (st' & E & HQ').
    + by rewrite Nat.add_0_r.
    + intros p [a b] Hp (Q1 & Q2 & Q3 & Q4). cbn [fst snd] in *. rewrite Hc. cbn [mbind option_bind]. rewrite HF. cbn [mbind option_bind].
      destruct (lookup_lt_is_Some_2 (sf_smin F) p ltac:(lia)) as [x Hx]. destruct (lookup_lt_is_Some_2 (sf_smax F) p ltac:(lia)) as [y Hy]. rewrite Hx. cbn [mbind option_bind]. rewrite upd_Some by lia. cbn [mbind option_bind]. rewrite Hy. cbn [mbind option_bind]. rewrite upd_Some by lia. cbn [mbind option_bind].
      eexists. split; [done|]. unfold Q. cbn [fst snd]. rewrite !insert_length. split; [done|]. split; [done|]. split.
      * intros j Hj. rewrite !list_lookup_insert_ne by lia. apply Q3. lia.
      * intros i' c' F' p' Hi' Hp' Hlt Hc' HF'. destruct (decide (np * i' + p' = np * i + p)%nat) as [Eq|].
        -- assert (i' = i ∧ p' = p) as [-> ->]. { destruct (pair_inj np p' p i' i); lia. } assert (c' = c) as -> by congruence. assert (F' = F) as -> by congruence. rewrite !list_lookup_insert by lia. done.
        -- rewrite !list_lookup_insert_ne by done. apply (Q4 i' c' F'); try done. lia.
    + exists st'. split; [done|]. by replace (np * (i + 1))%nat with (np * i + (0 + np))%nat by lia.
  - exists a, b. split; [done|]. destruct HQ as (Q1 & Q2 & Q3 & Q4). cbn [fst snd Nat.add] in *. split; [done|]. split; [done|]. split; [|split].
    + apply list_eq. intros j. rewrite !lookup_drop. apply Q3. lia.
    + apply list_eq. intros j. rewrite !lookup_drop. apply Q3. lia.
    + intros i c F p Hi Hp. apply Q4; try done. nia.
Qed.
Print Assumptions C64_relperm.
Print Assumptions C64_relperm_deriv.
Print Assumptions C64_relperm_scaled.
Print Assumptions C64_cap_press.
Print Assumptions C64_cap_press_deriv.
Print Assumptions C64_sat_range.
