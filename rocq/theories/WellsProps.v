(** Theorems about the wells data structure: C01, C02, C03. *)
From Verif Require Import Base WellsModel WellsSpec WellsProof.

Section props.
Context {V name_t : Type}.
Variables vzero vminus1 : V.
Variable J : junk V name_t.

Notation create_wells := (create_wells vzero vminus1 J).
Notation clone_wells := (clone_wells vzero vminus1 J).
Notation step := (step vzero vminus1 J).
Notation run := (run vzero vminus1 J).
Notation reachable := (reachable vzero vminus1 J).

(** C01.  After any history of valid calls, under any allocation outcomes, a
    client who reads the public structure sees exactly the wells described by
    the calls that reported success, in call order. *)
Theorem C01_view_is_history np nwells nperf W h :
  reachable np nwells nperf W h →
  ∃ a, spec_run vzero np h a ∧ view W = Some (a.*1).
Proof.
  intros H. destruct (reachable_rel _ _ _ _ _ _ _ _ H) as (a & H1 & H2 & _).
  exists a. split; [done|]. by eapply rel_view.
Qed.

(** C01.  No valid call on a reachable structure leaves an array or trips an
    assertion, whatever the allocator does. *)
Theorem C01_no_undefined_behaviour np nwells nperf W h a p o :
  reachable np nwells nperf W h → view W = Some a → op_valid np a p →
  is_Some (step p W o).
Proof.
  intros H Hv Hp. destruct (reachable_rel _ _ _ _ _ _ _ _ H) as (b & H1 & H2 & <- & _).
  rewrite (rel_view _ _ _ H2) in Hv. simplify_eq.
  destruct (step_correct vzero vminus1 J p W b o H2 Hp) as (? & ? & ? & ? & -> & _). eauto.
Qed.

(** C01.  With enough memory every valid call succeeds and the final contents
    are the deterministic result of the calls. *)
Theorem C01_exact_contents np nwells nperf W o ops :
  create_wells np nwells nperf o = Some (Some W, []) →
  ops_valid vzero np ops [] → Forall op_explicit ops →
  ∃ W', run ops W = Some W' ∧ view W' = Some (foldl (λ l p, spec_apply vzero np p l) [] ops).
Proof.
  intros E Hv Hex. destruct (create_wells_correct _ _ _ _ _ _ _ _ _ E) as (HR & <- & _).
  destruct (run_correct _ vminus1 J ops W [] HR Hv Hex) as (W' & a' & E' & HR' & _ & Ha).
  exists W'. split; [done|]. rewrite (rel_view _ _ _ HR'). f_equal. exact Ha.
Qed.

(** C01.  Creation itself succeeds when memory is available, and starts empty. *)
Theorem C01_create_empty np nwells nperf :
  ∃ W, create_wells np nwells nperf [] = Some (Some W, []) ∧ view W = Some [] ∧ w_np W = np.
Proof.
  destruct (create_wells_total vzero vminus1 J np nwells nperf) as [W E]. exists W.
  destruct (create_wells_correct _ _ _ _ _ _ _ _ _ E) as (HR & Hnp & _).
  split; [done|]. split; [|done]. by eapply rel_view in HR.
Qed.

(** C01.  Space reserved at creation is honoured: as long as the structure holds
    fewer wells and perforations than reserved, adding a well needs no memory
    for the structure and cannot fail. *)
Theorem C01_reserved_space np nwells nperf W h a ty dp cf cells wi nm o :
  reachable np nwells nperf W h → view W = Some a →
  op_valid np a (OAdd ty dp cf cells wi nm) →
  length a < nwells →
  sum_list_with (λ w, length (aw_perfs w)) a + length cells ≤ nperf →
  ∃ W' o', step (OAdd ty dp cf cells wi nm) W o = Some (true, W', o').
Proof.
  intros. edestruct (add_in_capacity vzero vminus1 J) as (W' & o' & E & _); eauto.
Qed.

(** C02.  A call that reports failure leaves everything a client can see
    unchanged. *)
Theorem C02_failure_changes_nothing np nwells nperf W h a p o W' o' :
  reachable np nwells nperf W h → view W = Some a → op_valid np a p →
  step p W o = Some (false, W', o') → view W' = view W.
Proof.
  intros H Hv Hp E. destruct (reachable_rel _ _ _ _ _ _ _ _ H) as (b & H1 & H2 & <- & _).
  rewrite (rel_view _ _ _ H2) in Hv. simplify_eq.
  destruct (step_correct vzero vminus1 J p W b o H2 Hp) as (? & ? & ? & a' & E' & _ & _ & HR & Hf & _).
  rewrite E' in E. simplify_eq. specialize (Hf eq_refl) as ->.
  by rewrite (rel_view _ _ _ HR), (rel_view _ _ _ H2).
Qed.

(** C02.  After a failure the structure is as usable as before: retrying with
    memory succeeds and has the full effect. *)
Theorem C02_retry_after_failure np nwells nperf W h a p o W' o' :
  reachable np nwells nperf W h → view W = Some a → op_valid np a p → op_explicit p →
  step p W o = Some (false, W', o') →
  ∃ W'', step p W' [] = Some (true, W'', []) ∧ view W'' = Some (spec_apply vzero np p a).
Proof.
  intros H Hv Hp Hex E. destruct (reachable_rel _ _ _ _ _ _ _ _ H) as (b & H1 & H2 & <- & _).
  rewrite (rel_view _ _ _ H2) in Hv. simplify_eq.
  destruct (step_correct vzero vminus1 J p W b o H2 Hp) as (? & ? & ? & a' & E' & Hn & _ & HR & Hf & _).
  rewrite E' in E. simplify_eq. specialize (Hf eq_refl) as ->.
  rewrite <- Hn in Hp.
  destruct (step_correct vzero vminus1 J p W' b [] HR Hp) as (? & W2 & ? & a2 & E2 & _ & _ & HR2 & _ & Ho & _).
  destruct (Ho eq_refl) as (-> & -> & Hs). exists W2. split; [done|].
  rewrite (rel_view _ _ _ HR2), Hs by done. by rewrite Hn.
Qed.

(** C03.  If every well's current control exists, a clone that is returned is
    equal to the original except possibly for names that could not be
    allocated; with memory available the clone is returned and is equal.  The
    only undefined case is the one of [create_wells] (see
    [C02_create_refuted]). *)
Theorem C03_clone np nwells nperf W h a o :
  reachable np nwells nperf W h → view W = Some a →
  (∀ w, w ∈ a → aw_current w < Z.of_nat (length (aw_ctrls w)))%Z →
  (∀ b o', o ≠ true :: b :: false :: o') →
  ∃ r o', clone_wells W o = Some (r, o') ∧
    (∀ R, r = Some R → ∃ b, view R = Some b ∧ Forall2 equal_but_name a b ∧ (o = [] → b = a)) ∧
    (o = [] → is_Some r).
Proof.
  intros H Hv Hc Ho. destruct (reachable_rel _ _ _ _ _ _ _ _ H) as (b & H1 & H2 & <- & _).
  rewrite (rel_view _ _ _ H2) in Hv. simplify_eq.
  destruct (clone_wells_correct vzero vminus1 J W b o H2) as (r & o' & E & Hr & Hs).
  - intros i x cl Hi. apply Hc. apply elem_of_list_fmap. exists (x, cl).
    split; [done|]. by eapply elem_of_list_lookup_2.
  - done.
  - exists r, o'. split; [done|]. split; [|done]. intros R ->.
    destruct (Hr R eq_refl) as (c & HRc & Hal & Heq). exists (c.*1).
    split; [by eapply rel_view|]. done.
Qed.
End props.
Print Assumptions C01_view_is_history.
Print Assumptions C01_no_undefined_behaviour.
Print Assumptions C01_exact_contents.
Print Assumptions C01_create_empty.
Print Assumptions C01_reserved_space.
Print Assumptions C02_failure_changes_nothing.
Print Assumptions C02_retry_after_failure.
Print Assumptions C03_clone.

(** ** Concrete cases *)
Section examples.
Local Definition J0 : junk Z nat := Junk PRODUCER BHP 77%Z 78 79%Z None (Some 5).
Local Definition cw := create_wells 0%Z (-1)%Z J0.
Local Definition ops1 : list (op Z nat) :=
  [OAdd INJECTOR 10%Z (Some [1;0]%Z) [3;4]%Z (Some [11;12]%Z) (Some 1);
   OAdd PRODUCER 20%Z None [7;8;9]%Z None None;
   OAppend BHP 200%Z (Some [5;6]%Z) 1;
   OAppend SURFACE_RATE 300%Z (Some [7;8]%Z) 1;
   OAppend RESERVOIR_RATE 1%Z (Some [0;1]%Z) 0;
   OSetCurrent 1 1; OSetCurrent 0 0].
Local Definition wells1 : list (awell Z nat) :=
  [AWell INJECTOR 10%Z [1;0]%Z [(3,11);(4,12)]%Z (Some 1) [ACtrl RESERVOIR_RATE 1%Z [0;1]%Z] 0;
   AWell PRODUCER 20%Z [0;0]%Z [(7,0);(8,0);(9,0)]%Z None
     [ACtrl BHP 200%Z [5;6]%Z; ACtrl SURFACE_RATE 300%Z [7;8]%Z] 1].

(** C01_exact_contents applies to a two-well, three-control sequence that forces
    several reallocations. *)
Example C01_case :
  ∃ W W', cw 2 0 0 [] = Some (Some W, []) ∧ run 0%Z (-1)%Z J0 ops1 W = Some W' ∧
    view W' = Some wells1 ∧ ops_valid 0%Z 2 ops1 [] ∧ Forall op_explicit ops1.
Proof.
  eexists _, _. split; [vm_compute; reflexivity|]. split; [vm_compute; reflexivity|].
  split; [vm_compute; reflexivity|]. split.
  - simpl. split_and!; try done; try lia; try (intros ? [= <-]; done).
    + eexists; split; [done|]; simpl; lia.
    + eexists; split; [done|]; simpl; lia.
  - unfold ops1. repeat (apply Forall_cons_2; [simpl; eauto|]). apply Forall_nil_2.
Qed.

(** The hypotheses of the history theorems are met: this state is reachable, and
    the next call fails when the allocator refuses. *)
Example C02_case :
  ∃ W W' o', reachable 0%Z (-1)%Z J0 2 1 2 W
         [(OAdd INJECTOR 10%Z None [3;4]%Z None (Some 1), true)] ∧
    step 0%Z (-1)%Z J0 (OAdd PRODUCER 10%Z None [3]%Z None None) W [true; false]
      = Some (false, W', o') ∧ W' ≠ W.
Proof.
  eexists _, _, _. split.
  { eapply (reach_step _ _ _ _ _ _ _ []) with (o := []).
    - eapply reach_create with (o := []). vm_compute. reflexivity.
    - vm_compute. reflexivity.
    - done.
    - vm_compute. reflexivity. }
  split; [vm_compute; reflexivity|]. intros [=].
Qed.

(** C03_clone applies to [wells1] (both current controls exist), and the
    out-of-memory outcomes are reachable too. *)
Example C03_case :
  ∃ W W' R, cw 2 0 0 [] = Some (Some W, []) ∧ run 0%Z (-1)%Z J0 ops1 W = Some W' ∧
    clone_wells 0%Z (-1)%Z J0 W' [] = Some (Some R, []) ∧ view R = Some wells1 ∧
    clone_wells 0%Z (-1)%Z J0 W' [true;true;true;false] = Some (None, []).
Proof.
  eexists _, _, _. split; [vm_compute; reflexivity|]. split; [vm_compute; reflexivity|].
  split; [vm_compute; reflexivity|]. split; [vm_compute; reflexivity|].
  vm_compute; reflexivity.
Qed.

(** C02 fails for creation: if the management structure cannot be allocated,
    [create_wells] does not report failure but reads through a NULL pointer
    (in destroy_wells). *)
Theorem C02_create_refuted :
  ∃ np nwells nperf o, cw np nwells nperf o = None.
Proof. exists 1, 0, 0, [true; true; false]. reflexivity. Qed.

(** C03 fails without the hypothesis on the current control: clearing the
    controls of a well keeps its current-control index, and cloning the result
    trips an assertion. *)
Theorem C03_clone_after_clear_refuted :
  ∃ W h, reachable 0%Z (-1)%Z J0 1 0 0 W h ∧ clone_wells 0%Z (-1)%Z J0 W [] = None.
Proof.
  eexists _, _. split.
  { eapply reach_step with (o := []) (p := OClear 0).
    { eapply reach_step with (o := []) (p := OSetCurrent 0 0).
      { eapply reach_step with (o := []) (p := OAppend BHP 1%Z (Some [1%Z]) 0).
        { eapply reach_step with (o := []) (p := OAdd INJECTOR 10%Z None [3]%Z None None).
          - eapply reach_create with (o := []). vm_compute. reflexivity.
          - vm_compute. reflexivity.
          - done.
          - vm_compute. reflexivity. }
        - vm_compute. reflexivity.
        - simpl. split; [lia|]. intros ? [= <-]; done.
        - vm_compute. reflexivity. }
      - vm_compute. reflexivity.
      - simpl. eexists. split; [done|]. simpl. lia.
      - vm_compute. reflexivity. }
    - vm_compute. reflexivity.
    - simpl. lia.
    - vm_compute. reflexivity. }
  vm_compute. reflexivity.
Qed.

(** C01 with a NULL distribution: after a clear, the appended control shows the
    distribution of a control that no longer exists instead of zero. *)
Theorem C01_null_distribution_refuted :
  ∃ W W' h a w c, reachable 0%Z (-1)%Z J0 1 0 0 W h ∧
    step 0%Z (-1)%Z J0 (OAppend BHP 2%Z None 0) W [] = Some (true, W', []) ∧
    view W' = Some a ∧ a !! 0 = Some w ∧ aw_ctrls w = [c] ∧ ac_distr c ≠ [0%Z].
Proof.
  eexists _, _, _, _, _, _. split.
  { eapply reach_step with (o := []) (p := OClear 0).
    { eapply reach_step with (o := []) (p := OAppend BHP 1%Z (Some [9%Z]) 0).
      { eapply reach_step with (o := []) (p := OAdd INJECTOR 10%Z None [3]%Z None None).
        - eapply reach_create with (o := []). vm_compute. reflexivity.
        - vm_compute. reflexivity.
        - done.
        - vm_compute. reflexivity. }
      - vm_compute. reflexivity.
      - simpl. split; [lia|]. intros ? [= <-]; done.
      - vm_compute. reflexivity. }
    - vm_compute. reflexivity.
    - simpl. lia.
    - vm_compute. reflexivity. }
  split; [vm_compute; reflexivity|]. split; [vm_compute; reflexivity|].
  split; [reflexivity|]. split; [reflexivity|]. simpl. done.
Qed.
End examples.
Print Assumptions C02_create_refuted.
Print Assumptions C03_clone_after_clear_refuted.
Print Assumptions C01_null_distribution_refuted.
