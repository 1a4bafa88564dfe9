(** Model of opm/core/transport/reorder/tarjan.c.

    Simplifications valid for the whole file: [int] has unlimited range; vertex
    numbers, times, links and array positions are [nat]; the three parts of the
    array work (time, link, status, lines 87-89) are separate lists; pointers
    into comp and vert are represented by how far they have moved: [t_sp] is
    the number of vertices on the stack at the end of comp, [t_k] the number of
    vertices on the stack at the end of vert.  The stacks do share the arrays
    with the output, as in the code.  [None] is an out-of-bounds access, a
    failed assertion, or running out of fuel. *)
From Verif Require Import Base.

Record tj := TJ {
  t_comp : list nat; t_ncomp : nat; t_sp : nat;
  t_vert : list nat; t_pos : nat; t_k : nat;
  t_time : list nat; t_link : list nat; t_status : list Z; t_t : nat }.
Definition remaining : Z := -1.   (* tarjan.c:70 *)
Definition done : Z := -2.        (* tarjan.c:70 *)

Section tarjan.
Variable nv : nat.
Variables ia ja : list nat.

(** [*stack-- = x], tarjan.c:113 and 177. *)
Definition push (x : nat) (s : tj) : option tj :=
  if decide (t_sp s ≤ nv) then
    comp ← upd (t_comp s) (nv - t_sp s) x;
    Some (TJ comp (t_ncomp s) (S (t_sp s)) (t_vert s) (t_pos s) (t_k s)
            (t_time s) (t_link s) (t_status s) (t_t s))
  else None.

(** Peek, tarjan.c:120, [*(stack+1)]. *)
Definition peek (s : tj) : option nat := t_comp s !! (nv - t_sp s + 1).

(** First visit of c, tarjan.c:122-134 (with the two assertions). *)
Definition visit (c : nat) (s : tj) : option tj :=
  st ← t_status s !! c;
  if decide (st = done) then None
  else if decide (st < -2)%Z then None
  else if decide (st = remaining) then
    e ← ia !! S c; b ← ia !! c;
    status ← upd (t_status s) c (Z.of_nat e - Z.of_nat b)%Z;
    link ← upd (t_link s) c (t_t s);
    time ← upd (t_time s) c (t_t s);
    if decide (t_k s < nv) then
      vert ← upd (t_vert s) (nv - 1 - t_k s) c;
      Some (TJ (t_comp s) (t_ncomp s) (t_sp s) vert (t_pos s) (S (t_k s)) time link status (S (t_t s)))
    else None
  else Some s.

(** The do-while loop, tarjan.c:145-156.  The first argument is the number of
    vertices on the component stack; [None] at 0 is the assertion at 147. *)
Fixpoint pop_comp (k : nat) (c : nat) (vert : list nat) (pos : nat) (status : list Z) :
    option (list nat * nat * nat * list Z) :=
  match k with
  | 0 => None
  | S k' =>
    v ← vert !! (nv - k);
    status ← upd status v done;
    vert ← upd vert pos v;
    if decide (v = c) then Some (vert, S pos, k', status)
    else pop_comp k' c vert (S pos) status
  end.

(** Body of the branch "all descendants are processed", tarjan.c:139-170. *)
Definition finish (c : nat) (s : tj) : option tj :=
  lc ← t_link s !! c; tc ← t_time s !! c;
  s ← (if decide (lc = tc) then
         '(vert, pos, k, status) ← pop_comp (t_k s) c (t_vert s) (t_pos s) (t_status s);
         comp ← upd (t_comp s) (S (t_ncomp s)) pos;
         Some (TJ comp (S (t_ncomp s)) (t_sp s) vert pos k (t_time s) (t_link s) status (t_t s))
       else Some s);
  let sp := t_sp s - 1 in
  link ← (if decide (sp ≠ 0) then
            q ← t_comp s !! (nv - sp + 1);
            lq ← t_link s !! q; lc ← t_link s !! c;
            upd (t_link s) q (Nat.min lq lc)
          else Some (t_link s));
  Some (TJ (t_comp s) (t_ncomp s) sp (t_vert s) (t_pos s) (t_k s) (t_time s) link (t_status s) (t_t s)).

(** The branch "more descendants to consider", tarjan.c:175-198; [st] is
    status[c]. *)
Definition descend (c : nat) (st : Z) (s : tj) : option tj :=
  if decide (st > 0)%Z then
    b ← ia !! c;
    child ← ja !! (b + Z.to_nat st - 1);
    status ← upd (t_status s) c (st - 1)%Z;
    sc ← status !! child;
    let s' := TJ (t_comp s) (t_ncomp s) (t_sp s) (t_vert s) (t_pos s) (t_k s)
                 (t_time s) (t_link s) status (t_t s) in
    if decide (sc = remaining) then push child s'
    else if decide (0 ≤ sc)%Z then
      lc ← t_link s !! c; tch ← t_time s !! child;
      link ← upd (t_link s) c (Nat.min lc tch);
      Some (TJ (t_comp s) (t_ncomp s) (t_sp s) (t_vert s) (t_pos s) (t_k s)
               (t_time s) link status (t_t s))
    else if decide (sc = done) then Some s' else None
  else None.

(** Body of the inner while loop, tarjan.c:118-199. *)
Definition tj_step (s : tj) : option tj :=
  c ← peek s;
  s ← visit c s;
  st ← t_status s !! c;
  if decide (st = 0)%Z then finish c s else descend c st s.

Fixpoint tj_while (fuel : nat) (s : tj) : option tj :=
  match fuel with
  | 0 => None
  | S fuel => if decide (t_sp s = 0) then Some s else s ← tj_step s; tj_while fuel s
  end.

(** The outer while loop, tarjan.c:103-201, with the assertion at 200. *)
Fixpoint tj_outer (n fuel seed : nat) (s : tj) : option tj :=
  match n with
  | 0 => None
  | S n =>
    if decide (seed < nv) then
      st ← t_status s !! seed;
      if decide (st = done) then tj_outer n fuel (S seed) s
      else
        s ← push seed s;
        let s := TJ (t_comp s) (t_ncomp s) (t_sp s) (t_vert s) (t_pos s) (t_k s)
                    (t_time s) (t_link s) (t_status s) 0 in
        s ← tj_while fuel s;
        if decide (t_k s = 0) then tj_outer n fuel seed s else None
    else Some s
  end.
End tarjan.

(** tarjan, tarjan.c:64-202: vert, comp and ncomp on return.  The arrays have
    the lengths required by the comment at 41-61 (vert: nv, comp: nv + 1, work:
    3 nv); their initial contents are cleared (91-93) and so left out.  The
    statement [*comp++ = pos] at 102 stores 0 in comp[0], which is 0 already. *)
Definition tarjan (fuel nv : nat) (ia ja : list nat) : option (list nat * list nat * nat) :=
  s ← tj_outer nv ia ja fuel fuel 0
        (TJ (replicate (S nv) 0) 0 0 (replicate nv 0) 0 0
            (replicate nv 0) (replicate nv 0) (replicate nv remaining) 0);
  Some (t_vert s, t_comp s, t_ncomp s).
