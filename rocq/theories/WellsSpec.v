(** What a client of wells.h sees, and what the operations should do to it.
    This file only reads the public fields of the structures. *)
From Verif Require Import Base WellsModel.

Section spec.
Context {V name_t : Type}.
Variable vzero : V.

(** One control and one well as a client describes them. *)
Record actrl := ACtrl { ac_type : ctype; ac_target : V; ac_distr : list V }.
Record awell := AWell {
  aw_type : wtype; aw_depth : V; aw_frac : list V;
  aw_perfs : list (Z * V);            (* cell and well index of each perforation *)
  aw_name : option name_t;
  aw_ctrls : list actrl; aw_current : Z }.

(** Reading the public structure as documented in wells.h; [None] if the
    documented access pattern leaves an array. *)
Definition view_ctrl (np : nat) (c : ctrl V) (k : nat) : option actrl :=
  ty ← c_type c !! k; tg ← c_target c !! k; ds ← slice (c_distr c) (k * np) np;
  Some (ACtrl ty tg ds).
Definition view_ctrls (np : nat) (c : ctrl V) : option (list actrl) :=
  mapM (view_ctrl np c) (seq 0 (c_num c)).
Definition view_well (W : wells V name_t) (i : nat) : option awell :=
  ty ← w_type W !! i; dp ← w_depth W !! i; nm ← w_name W !! i;
  cf ← slice (w_comp_frac W) (w_np W * i) (w_np W);
  b ← w_connpos W !! i; e ← w_connpos W !! S i;
  cells ← slice (w_cells W) b (e - b);
  wi ← slice (w_WI W) b (e - b);
  oc ← w_ctrls W !! i; c ← oc; cs ← view_ctrls (w_np W) c;
  if decide (b ≤ e) then Some (AWell ty dp cf (zip cells wi) nm cs (c_current c)) else None.
Definition view (W : wells V name_t) : option (list awell) :=
  mapM (view_well W) (seq 0 (w_nw W)).

(** Client operations. *)
Inductive op :=
  | OAdd (ty : wtype) (depth : V) (cf : option (list V)) (cells : list Z)
         (wi : option (list V)) (nm : option name_t)
  | OAppend (ty : ctype) (target : V) (distr : option (list V)) (i : nat)
  | OSetCurrent (i : nat) (current : Z)
  | OClear (i : nat).

(** Documented argument requirements, in terms of what the client knows: array
    lengths, existing well index, existing control index. *)
Definition op_valid (np : nat) (a : list awell) (p : op) : Prop :=
  match p with
  | OAdd _ _ cf cells wi _ =>
      (∀ l, cf = Some l → length l = np) ∧ (∀ l, wi = Some l → length l = length cells)
  | OAppend _ _ distr i => i < length a ∧ (∀ l, distr = Some l → length l = np)
  | OSetCurrent i k => ∃ w, a !! i = Some w ∧ (k < Z.of_nat (length (aw_ctrls w)))%Z
  | OClear i => i < length a
  end.

(** The effect of an operation that returned [b] on the wells described so far.
    The boolean next to each well records whether its controls were ever
    cleared: after that, the distribution of a control appended with a NULL
    distribution is unspecified (before that it is zero).  A well may lose its
    name if there was no memory for it ([add_well] documents no failure then). *)
Inductive spec_step (np : nat) : op → bool → list (awell * bool) → list (awell * bool) → Prop :=
  | spec_add_fail ty dp cf cells wi nm a :
      spec_step np (OAdd ty dp cf cells wi nm) false a a
  | spec_add_ok ty dp cf cells wi nm nm' a :
      nm' = nm ∨ nm' = None →
      spec_step np (OAdd ty dp cf cells wi nm) true a
        (a ++ [(AWell ty dp (default (replicate np vzero) cf)
                  (zip cells (default (replicate (length cells) vzero) wi)) nm' [] (-1),
                false)])
  | spec_append_fail ty tg ds i a :
      spec_step np (OAppend ty tg ds i) false a a
  | spec_append_ok ty tg ds d i a w cl :
      a !! i = Some (w, cl) →
      length d = np →
      (∀ l, ds = Some l → d = l) →
      (ds = None → cl = false → d = replicate np vzero) →
      spec_step np (OAppend ty tg ds i) true a
        (<[i := (AWell (aw_type w) (aw_depth w) (aw_frac w) (aw_perfs w) (aw_name w)
                   (aw_ctrls w ++ [ACtrl ty tg d]) (aw_current w), cl)]> a)
  | spec_set i k a w cl :
      a !! i = Some (w, cl) →
      spec_step np (OSetCurrent i k) true a
        (<[i := (AWell (aw_type w) (aw_depth w) (aw_frac w) (aw_perfs w) (aw_name w)
                   (aw_ctrls w) k, cl)]> a)
  | spec_clear i a w cl :
      a !! i = Some (w, cl) →
      spec_step np (OClear i) true a
        (<[i := (AWell (aw_type w) (aw_depth w) (aw_frac w) (aw_perfs w) (aw_name w)
                   [] (aw_current w), true)]> a).

(** A history: operations with their reported results. *)
Inductive spec_run (np : nat) : list (op * bool) → list (awell * bool) → Prop :=
  | spec_nil : spec_run np [] []
  | spec_snoc h a p b a' :
      spec_run np h a → spec_step np p b a a' → spec_run np (h ++ [(p, b)]) a'.

(** The deterministic effect when memory is always available and every
    distribution is given. *)
Definition spec_apply (np : nat) (p : op) (a : list awell) : list awell :=
  match p with
  | OAdd ty dp cf cells wi nm =>
      a ++ [AWell ty dp (default (replicate np vzero) cf)
              (zip cells (default (replicate (length cells) vzero) wi)) nm [] (-1)]
  | OAppend ty tg ds i =>
      alter (λ w, AWell (aw_type w) (aw_depth w) (aw_frac w) (aw_perfs w) (aw_name w)
                    (aw_ctrls w ++ [ACtrl ty tg (default [] ds)]) (aw_current w)) i a
  | OSetCurrent i k =>
      alter (λ w, AWell (aw_type w) (aw_depth w) (aw_frac w) (aw_perfs w) (aw_name w)
                    (aw_ctrls w) k) i a
  | OClear i =>
      alter (λ w, AWell (aw_type w) (aw_depth w) (aw_frac w) (aw_perfs w) (aw_name w)
                    [] (aw_current w)) i a
  end.
Definition op_explicit (p : op) : Prop :=
  match p with OAppend _ _ ds _ => is_Some ds | _ => True end.

(** Equal except that a name may be missing in the second well. *)
Definition equal_but_name (w w' : awell) : Prop :=
  ∃ nm, (nm = aw_name w ∨ nm = None) ∧
    w' = AWell (aw_type w) (aw_depth w) (aw_frac w) (aw_perfs w) nm (aw_ctrls w) (aw_current w).

End spec.
Arguments actrl V : clear implicits.
Arguments awell V name_t : clear implicits.
Arguments op V name_t : clear implicits.

(** Executions of the model: creation followed by valid operations, with any
    allocation outcomes ([o] is a fresh oracle for every call). *)
Section exec.
Context {V name_t : Type}.
Variables vzero vminus1 : V.
Variable J : junk V name_t.

Definition step (p : op V name_t) (W : wells V name_t) (o : list bool)
    : option (bool * wells V name_t * list bool) :=
  match p with
  | OAdd ty dp cf cells wi nm => add_well vzero vminus1 J ty dp cf cells wi nm W o
  | OAppend ty tg ds i => append_well_controls vzero vminus1 J ty tg ds i W o
  | OSetCurrent i k => W' ← set_current_control i k W; Some (true, W', o)
  | OClear i => W' ← clear_well_controls i W; Some (true, W', o)
  end.

Inductive reachable (np nwells nperf : nat) : wells V name_t → list (op V name_t * bool) → Prop :=
  | reach_create W o o' :
      create_wells vzero vminus1 J np nwells nperf o = Some (Some W, o') →
      reachable np nwells nperf W []
  | reach_step W h a p b W' o o' :
      reachable np nwells nperf W h →
      view W = Some a → op_valid np a p →
      step p W o = Some (b, W', o') →
      reachable np nwells nperf W' (h ++ [(p, b)]).

(** A sequence of calls with enough memory; [None] if one of them is undefined
    or reports failure. *)
Fixpoint run (ops : list (op V name_t)) (W : wells V name_t) : option (wells V name_t) :=
  match ops with
  | [] => Some W
  | p :: ops =>
      r ← step p W [];
      let '(b, W, _) := r in if (b : bool) then run ops W else None
  end.
End exec.

(** The sequence respects the documented argument requirements. *)
Fixpoint ops_valid {V name_t} (vzero : V) (np : nat) (ops : list (op V name_t))
    (a : list (awell V name_t)) : Prop :=
  match ops with
  | [] => True
  | p :: ops => op_valid np a p ∧ ops_valid vzero np ops (spec_apply vzero np p a)
  end.
