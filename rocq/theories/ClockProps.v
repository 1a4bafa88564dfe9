(** C24: the simulation clock.  C26: the stop watch. *)
From Coq Require Import Reals Lra.
From Verif Require Import Base ClockModel.
Local Close Scope R_scope.

(** ** C24 *)
Section timer.
Context {T : Type} (zero : T) (add : T → T → T).
Notation timer := (timer T).
(** The sum of the first k steps, added in order. *)
Fixpoint sum_from (acc : T) (l : list T) : T := match l with [] => acc | d :: l => sum_from (add acc d) l end.
Definition elapsed (steps : list T) (k : nat) : T := sum_from zero (take k steps).
(** The timer stands at step k of [steps]. *)
Definition stands_at (t : timer) (steps : list T) (k : nat) : Prop :=
  tm_steps t = steps ∧ tm_step t = Z.of_nat k ∧ k ≤ length steps ∧ tm_time t = elapsed steps k.
Inductive tcall := Inc | Set_ (step : Z).
Definition tcall_run (c : tcall) (t : timer) : option (tres timer) :=
  match c with Inc => tm_inc add t | Set_ k => tm_set zero add k t end.
(** Where a call should lead. *)
Definition tcall_spec (c : tcall) (n k : nat) : option nat :=
  match c with Inc => if decide (k < n) then Some (k + 1) else None | Set_ j => Some (Z.to_nat j) end.
Definition tcall_valid (n : nat) (c : tcall) : Prop := match c with Inc => True | Set_ j => (0 ≤ j ≤ Z.of_nat n)%Z end.

Lemma sum_from_foldl acc l : sum_from acc l = foldl add acc l.
Proof. revert acc. induction l as [|d l IH]; intros acc; simpl; [done|apply IH]. Qed.
Lemma elapsed_S steps k d : steps !! k = Some d → elapsed steps (k + 1) = add (elapsed steps k) d.
Proof.
  intros H. unfold elapsed. rewrite Nat.add_1_r, (take_S_r _ _ d H), !sum_from_foldl, foldl_app. done.
Qed.
(** A fresh timer, initialised either way, stands at step 0. *)
Theorem C24_init junk tstep scale n d :
  stands_at (tm_init_deck zero add tstep (tm_new zero junk)) tstep 0 ∧
  tm_total (tm_init_deck zero add tstep (tm_new zero junk)) = elapsed tstep (length tstep) ∧
  stands_at (tm_init_param scale n d (tm_new zero junk)) (replicate n d) 0.
Proof.
  split_and!.
  - repeat split; simpl; lia.
  - cbn [tm_init_deck tm_total]. unfold elapsed, accumulate. rewrite firstn_all. symmetry. apply sum_from_foldl.
  - repeat split; simpl; lia.
Qed.
(** One call. *)
Theorem C24_call t steps k c : stands_at t steps k → tcall_valid (length steps) c →
  match tcall_spec c (length steps) k with
  | Some k' => ∃ t', tcall_run c t = Some (TOk t') ∧ stands_at t' steps k' ∧ tm_total t' = tm_total t
  | None => tcall_run c t = Some TThrow
  end.
Proof.
  intros (Hs & Hk & Hl & Ht) Hv. destruct c as [|j]; simpl.
  - unfold tm_inc, tm_done. rewrite Hs, Hk. destruct (decide (k < length steps)) as [Hlt|Hge].
    + rewrite bool_decide_false by lia. rewrite decide_True by lia. rewrite Nat2Z.id.
      destruct (lookup_lt_is_Some_2 steps k Hlt) as [d Hd]. rewrite Hd. simpl. eexists. split; [done|]. split; [|done].
      unfold stands_at; cbn [tm_steps tm_step tm_time]; split_and!; [done|lia|lia|]. rewrite Ht. symmetry. by apply elapsed_S.
    + rewrite bool_decide_true by lia. done.
  - simpl in Hv. unfold tm_set. rewrite Hs, Hk. rewrite decide_False by lia. rewrite decide_True by lia. eexists. split; [done|]. split; [|done].
    unfold stands_at; cbn [tm_steps tm_step tm_time]; split_and!; [done|lia|lia|]. unfold elapsed, accumulate. symmetry. apply sum_from_foldl.
Qed.
(** Every history of valid calls: the clock is the sum of the steps before the
    current one, the same value whether reached by stepping or by selection. *)
Fixpoint trun (cs : list tcall) (t : timer) : option (list bool * timer) :=
  match cs with
  | [] => Some ([], t)
  | c :: cs => r ← tcall_run c t; '(ok, t) ← Some (match r with TOk t' => (true, t') | TThrow => (false, t) end);
               '(oks, t) ← trun cs t; Some (ok :: oks, t)
  end.
Fixpoint trun_spec (cs : list tcall) (n k : nat) : list bool * nat :=
  match cs with
  | [] => ([], k)
  | c :: cs => match tcall_spec c n k with
               | Some k' => let '(oks, e) := trun_spec cs n k' in (true :: oks, e)
               | None => let '(oks, e) := trun_spec cs n k in (false :: oks, e)
               end
  end.
Theorem C24_history cs t steps k : stands_at t steps k → Forall (tcall_valid (length steps)) cs →
  ∃ t', trun cs t = Some (fst (trun_spec cs (length steps) k), t') ∧ stands_at t' steps (snd (trun_spec cs (length steps) k)).
Proof.
  revert t k. induction cs as [|c cs IH]; intros t k Ht Hv; simpl; [by exists t|]. apply Forall_cons in Hv as [Hc Hv].
  pose proof (C24_call t steps k c Ht Hc) as Hx. destruct (tcall_spec c (length steps) k) as [k'|].
  - destruct Hx as (t1 & -> & Ht1 & _). simpl. destruct (IH t1 k' Ht1 Hv) as (t' & -> & Ht'). simpl. destruct (trun_spec cs _ k'). by exists t'.
  - rewrite Hx. simpl. destruct (IH t k Ht Hv) as (t' & -> & Ht'). simpl. destruct (trun_spec cs _ k). by exists t'.
Qed.
(** done holds exactly at the end, and then the time is the total of the deck;
    before the end the step length is the next step. *)
Theorem C24_done t steps k : stands_at t steps k →
  (tm_done t = true ↔ k = length steps) ∧ (tm_total t = elapsed steps (length steps) → tm_done t = true → tm_time t = tm_total t) ∧
  (∀ d, steps !! k = Some d → tm_length t = Some (TOk d)).
Proof.
  intros (Hs & Hk & Hl & Ht). assert (D : tm_done t = true ↔ k = length steps).
  { unfold tm_done. rewrite Hs, Hk, bool_decide_eq_true. lia. }
  split_and!; [done| |].
  - intros Htot Hd. apply D in Hd as ->. congruence.
  - intros d Hd. unfold tm_length. assert (tm_done t = false) as ->.
    { destruct (tm_done t) eqn:E; [|done]. apply proj1 in D; specialize (D eq_refl). apply lookup_lt_Some in Hd. lia. }
    rewrite decide_True by lia. rewrite Hk, Nat2Z.id, Hs, Hd. done.
Qed.
(** False parts.  setCurrentStepNum tests the old step number, so an invalid one is
    not rejected but read out of bounds; *)
Theorem C24_set_refuted (junk d : T) : ∃ t steps, stands_at t steps 0 ∧
  tm_set zero add 3 t = None ∧ tm_set zero add (-1) t = None ∧ t = tm_init_deck zero add steps (tm_new zero junk).
Proof. exists (tm_init_deck zero add [d; d] (tm_new zero junk)), [d; d]. split_and!; [repeat split; simpl; lia|done|done|done]. Qed.
(** and init keeps the old step number, so a timer initialised again with fewer
    steps is never done and steps past the end. *)
Theorem C24_reinit_refuted (junk d : T) : ∃ t t', trun [Inc; Inc] (tm_init_deck zero add [d; d; d] (tm_new zero junk)) = Some ([true; true], t) ∧
  t' = tm_init_deck zero add [d] t ∧ tm_done t' = false ∧ tm_inc add t' = None.
Proof. eexists _, _. split; [reflexivity|]. split; [reflexivity|]. split; reflexivity. Qed.
End timer.
Print Assumptions C24_init.
Print Assumptions C24_call.
Print Assumptions C24_history.
Print Assumptions C24_done.
Print Assumptions C24_set_refuted.
Print Assumptions C24_reinit_refuted.
(** Over the reals the total of init(param) is the sum of its steps, and the clock
    never runs backwards with nonnegative steps. *)
Theorem C24_total_param n d t : tm_total (tm_init_param (λ n d, (INR n * d)%R) n d t) = elapsed 0%R Rplus (replicate n d) n.
Proof.
  simpl. unfold elapsed. rewrite take_ge by (rewrite replicate_length; lia). rewrite sum_from_foldl.
  assert (G : ∀ a, foldl Rplus a (replicate n d) = (a + INR n * d)%R).
  { induction n as [|n IH]; intros a; cbn [replicate foldl]; [simpl; lra|]. rewrite IH, S_INR. lra. }
  rewrite G. lra.
Qed.
Theorem C24_monotone (steps : list R) j k : Forall (λ d : R, (0 <= d)%R) steps → j ≤ k → (elapsed 0%R Rplus steps j <= elapsed 0%R Rplus steps k)%R.
Proof.
  intros Hp Hjk. induction Hjk as [|k Hjk IH]; [lra|]. destruct (steps !! k) as [d|] eqn:E.
  - rewrite <- Nat.add_1_r, (elapsed_S _ _ _ _ _ E). rewrite Forall_lookup in Hp. specialize (Hp _ _ E). simpl in Hp. lra.
  - unfold elapsed in *. apply lookup_ge_None in E. rewrite (take_ge steps (S k)) by lia. rewrite (take_ge steps k) in IH by lia. done.
Qed.
Print Assumptions C24_total_param.
Print Assumptions C24_monotone.
Example C24_example : trun 0%Z Z.add [Inc; Inc; Set_ 1; Inc; Inc; Inc] (tm_init_deck 0%Z Z.add [5; 7; 11]%Z (tm_new 0%Z 99%Z))
  = Some ([true; true; true; true; true; false], Timer [5; 7; 11]%Z 3 23%Z 23%Z).
Proof. reflexivity. Qed.

(** ** C26 *)
Local Open Scope Z_scope.
Inductive wcall := WStart | WStop | WLap | WTotal.
Inductive wout := Done | Rejected | Lap (t : Z) | Total (t : Z).
Definition wstep (c : wcall) (now : Z) (w : watch) : wout * watch :=
  match c with
  | WStart => (Done, sw_start now w)
  | WStop => match sw_stop now w with Some w' => (Done, w') | None => (Rejected, w) end
  | WLap => match sw_since_last now w with Some (t, w') => (Lap t, w') | None => (Rejected, w) end
  | WTotal => match sw_since_start now w with Some t => (Total t, w) | None => (Rejected, w) end
  end.
Fixpoint wrun (cs : list (wcall * Z)) (w : watch) : list wout * watch :=
  match cs with [] => ([], w) | (c, now) :: cs => let '(o, w) := wstep c now w in let '(os, w) := wrun cs w in (o :: os, w) end.
(** Clock readings that never decrease, from [t] on. *)
Fixpoint clock_ok (t : Z) (cs : list (wcall * Z)) : Prop := match cs with [] => True | (_, now) :: cs => t ≤ now ∧ clock_ok now cs end.
Definition fresh (junk1 junk2 junk3 : Z) : watch := Watch UnStarted junk1 junk2 junk3.
(** Reported intervals are not negative. *)
Definition winv (t : Z) (w : watch) : Prop :=
  match w_state w with UnStarted => True | Running => w_start w ≤ w_last w ∧ w_last w ≤ t | Stopped => w_start w ≤ w_last w ∧ w_last w ≤ w_stop w ∧ w_stop w ≤ t end.
Lemma winv_step c t now w : winv t w → t ≤ now → winv now (snd (wstep c now w)) ∧
  match fst (wstep c now w) with Lap d => 0 ≤ d | Total d => 0 ≤ d | _ => True end.
Proof.
  intros H Ht. destruct w as [st a l e]. unfold winv in *. destruct c, st; simpl in *; lia.
Qed.
Theorem C26_nonnegative j1 j2 j3 t cs : clock_ok t cs →
  Forall (λ o, match o with Lap d => 0 ≤ d | Total d => 0 ≤ d | _ => True end) (fst (wrun cs (fresh j1 j2 j3))).
Proof.
  assert (G : ∀ cs t w, winv t w → clock_ok t cs → Forall (λ o, match o with Lap d => 0 ≤ d | Total d => 0 ≤ d | _ => True end) (fst (wrun cs w))).
  { clear. induction cs as [|[c now] cs IH]; intros t w Hw Hc; simpl; [constructor|]. destruct Hc as [Hn Hc].
    destruct (winv_step c t now w Hw Hn) as [H1 H2]. destruct (wstep c now w) as [o w1]. simpl in *.
    specialize (IH now w1 H1 Hc). destruct (wrun cs w1). simpl in *. by constructor. }
  intros Hc. eapply G; [|done]. done.
Qed.
(** A call in the wrong state is rejected and changes nothing: stop when not
    running, the readings before the first start. *)
Theorem C26_rejected c now w : (fst (wstep c now w) = Rejected ↔
   (c = WStop ∧ w_state w ≠ Running) ∨ ((c = WLap ∨ c = WTotal) ∧ w_state w = UnStarted)) ∧
  (fst (wstep c now w) = Rejected → snd (wstep c now w) = w).
Proof. destruct w as [st a l e]. destruct c, st; simpl; naive_solver. Qed.
(** The sum of the laps reported. *)
Fixpoint laps (os : list wout) : Z := match os with [] => 0 | Lap d :: os => d + laps os | _ :: os => laps os end.
(** From a start at [t0] on, through any calls except another start, the laps
    reported so far and the next one add up to the time since the start. *)
Theorem C26_laps_add_up w0 t0 cs now : Forall (λ c, fst c ≠ WStart) cs →
  let '(os, w) := wrun cs (sw_start t0 w0) in
  ∃ d, fst (wstep WLap now w) = Lap d ∧ fst (wstep WTotal now w) = Total (laps os + d).
Proof.
  intros Hc. assert (G : ∀ cs w, Forall (λ c, fst c ≠ WStart) cs → w_state w ≠ UnStarted →
    w_state (snd (wrun cs w)) ≠ UnStarted ∧ w_start (snd (wrun cs w)) = w_start w ∧ w_last (snd (wrun cs w)) = w_last w + laps (fst (wrun cs w))).
  { clear. induction cs as [|[c n] cs IH]; intros w Hc Hw; simpl; [split_and!; [done|done|lia]|]. apply Forall_cons in Hc as [Hcc Hc].
    destruct (wstep c n w) as [o w1] eqn:E. assert (H1 : w_state w1 ≠ UnStarted ∧ w_start w1 = w_start w ∧ w_last w1 = w_last w + laps [o]).
    { destruct w as [st a l e]. destruct c, st; simpl in *; simplify_eq; simpl; split_and!; try done; lia. }
    destruct H1 as (H1 & H2 & H3). destruct (IH w1 Hc H1) as (I1 & I2 & I3). destruct (wrun cs w1) as [os w2]. simpl in *.
    split_and!; [done|congruence|]. rewrite I3, H3. destruct o; simpl; lia. }
  specialize (G cs (sw_start t0 w0) Hc ltac:(done)). destruct (wrun cs (sw_start t0 w0)) as [os w]. simpl in G.
  destruct G as (G1 & G2 & G3). destruct w as [st a l e]; simpl in *. destruct st; [done| |]; simpl; eexists; (split; [done|]); f_equal; lia.
Qed.
(** After stop the time since the start stays what it was at the stop. *)
Theorem C26_stopped now w cs w' : sw_stop now w = Some w' → Forall (λ c, fst c ≠ WStart) cs →
  ∀ later, fst (wstep WTotal later (snd (wrun cs w'))) = Total (now - w_start w).
Proof.
  intros Hs Hc later. assert (G : ∀ cs u, Forall (λ c, fst c ≠ WStart) cs → w_state u = Stopped →
    w_state (snd (wrun cs u)) = Stopped ∧ w_start (snd (wrun cs u)) = w_start u ∧ w_stop (snd (wrun cs u)) = w_stop u).
  { clear. induction cs as [|[c n] cs IH]; intros u Hc Hu; simpl; [done|]. apply Forall_cons in Hc as [Hcc Hc].
    destruct (wstep c n u) as [o u1] eqn:E. assert (H1 : w_state u1 = Stopped ∧ w_start u1 = w_start u ∧ w_stop u1 = w_stop u).
    { destruct u as [st a l e]. simpl in *. subst st. destruct c; simpl in *; simplify_eq; done. }
    destruct H1 as (H1 & H2 & H3). destruct (IH u1 Hc H1) as (I1 & I2 & I3). destruct (wrun cs u1) as [os u2]. simpl in *. split_and!; congruence. }
  unfold sw_stop in Hs. destruct w as [st a l e]. simpl in *. destruct st; simplify_eq.
  destruct (G cs (Watch Stopped a l now) Hc eq_refl) as (G1 & G2 & G3). unfold sw_since_start. rewrite G1, G2, G3. done.
Qed.
Print Assumptions C26_nonnegative.
Print Assumptions C26_rejected.
Print Assumptions C26_laps_add_up.
Print Assumptions C26_stopped.
Example C26_example : fst (wrun [(WLap, 1); (WStart, 10); (WLap, 13); (WTotal, 14); (WLap, 20); (WStop, 25); (WStop, 26); (WLap, 30); (WTotal, 40)] (fresh 5 6 7))
  = [Rejected; Done; Lap 3; Total 4; Lap 7; Done; Rejected; Lap 5; Total 15].
Proof. reflexivity. Qed.
