(** Model of the constructors of SinglePvtLiveOil and SinglePvtLiveGas
    (opm/core/props/pvt/SinglePvtLiveOil.cpp, SinglePvtLiveGas.cpp).

    Simplifications valid for the whole file: those of PvtModel.v; std::upper_bound
    is the first element that is larger, which is what it is for sorted ranges; the
    while loop over pressures has fuel. *)
From Coq Require Import Reals.
From Verif Require Import Base LoopModel TableModel PvtModel.
Local Open Scope R_scope.

(** Columns of the records, SinglePvtLiveOil.cpp:52-57 and SinglePvtLiveGas.cpp:62-67:
    element [k] of record [i]; [inv] where 1/x is stored. *)
Definition column (recs : list (list R)) (k : nat) (inv : bool) : option (list R) :=
  mapM (λ r, x ← r !! k; if inv then rdiv 1 x else Some x) recs.
(** The table of one record, SinglePvtLiveOil.cpp:61-71 and SinglePvtLiveGas.cpp:71-80.
    A record without elements has been refused before. *)
Definition und_table (inv : bool) (r : list R) : option (list (list R)) :=
  let tsize := ((length r - 1) / 3)%nat in
  c0 ← mapM (λ j, r !! (3 * j + 1)%nat) (seq 0 tsize);
  c1 ← mapM (λ j, x ← r !! (3 * j + 2)%nat; if (inv : bool) then rdiv 1 x else Some x) (seq 0 tsize);
  c2 ← mapM (λ j, r !! (3 * j + 3)%nat) (seq 0 tsize);
  Some [c0; c1; c2].
(** Constructor, SinglePvtLiveGas.cpp:49-82. *)
Definition gas_make (pvtg : list (list (list R))) : option live :=
  match pvtg with
  | [recs] =>
      p ← column recs 0 false; b ← column recs 2 false; mu ← column recs 3 false; rv ← column recs 1 false;
      und ← mapM (und_table false) recs;
      Some (Live [p; b; mu; rv] und)
  | _ => None
  end.

(** undersat_oil_tables_[i][0].size(). *)
Definition und_size (und : list (list (list R))) (i : nat) : option nat := t ← und !! i; p ← t !! 0%nat; Some (length p).
(** while (undersat_oil_tables_[iNext][0].size() < 2) ++iNext,
    SinglePvtLiveOil.cpp:77-79 and 93-95; reading beyond the end is undefined. *)
Fixpoint find_next (fuel : nat) (und : list (list (list R))) (i : nat) : option nat :=
  match fuel with
  | 0%nat => None
  | S fuel => s ← und_size und i; if decide (s < 2)%nat then find_next fuel und (S i) else Some i
  end.
(** std::upper_bound: the index of the first element larger than [x], or the length. *)
Fixpoint upper_bound (l : list R) (x : R) : nat :=
  match l with [] => 0 | a :: l => if Rlt_dec x a then 0 else S (upper_bound l x) end.
(** SinglePvtLiveOil.cpp:105-119 and 122-140: the pressure, whether there are more, and the
    slopes of 1/B and viscosity in table [t] after pressure [p0]. *)
Definition pick (t : list (list R)) (p0 : R) : option (R * bool * (R * R)) :=
  ps ← t !! 0%nat; bs ← t !! 1%nat; vs ← t !! 2%nat;
  let it := upper_bound ps (p0 + 1) in
  let it := if decide (it = length ps) then (it - 1)%nat else if decide (it = 0%nat) then 1%nat else it in
  let more := negb (bool_decide (it = (length ps - 1)%nat)) in
  if decide (it = 0%nat) then None else
  p ← ps !! it; q ← ps !! (it - 1)%nat;
  let dP := p - q in
  b1 ← bs !! it; b0 ← bs !! (it - 1)%nat; sb ← rdiv (b1 - b0) dP;
  v1 ← vs !! it; v0 ← vs !! (it - 1)%nat; sv ← rdiv (v1 - v0) dP;
  Some (p, more, (sb, sv)).
(** push_back on the columns of a table. *)
Definition push (t : list (list R)) (x y z : R) : option (list (list R)) :=
  match t with [a; b; c] => Some [a ++ [x]; b ++ [y]; c ++ [z]] | _ => None end.
(** The loop over pressures, SinglePvtLiveOil.cpp:101-155, for the table [t] of record
    [i]; [prev] and [next] are the tables of records iPrev and iNext, [w] the weight
    computed in lines 144-145 (there in every turn); [sp] and [sn] are the slopes. *)
Fixpoint extend (fuel : nat) (prev : option (list (list R))) (next : list (list R)) (w : option R) (t : list (list R)) (fp fn : bool) (sp sn : R * R) : option (list (list R)) :=
  if fp || fn then
    match fuel with
    | 0%nat => None
    | S fuel =>
        c0 ← t !! 0%nat; c1 ← t !! 1%nat; c2 ← t !! 2%nat;
        pressure0 ← last c0;
        '(pressure, fp, sp) ← (if fp then t ← prev; pick t pressure0 else Some (IZR (10 ^ 47), fp, sp));
        '(pressure, fn, sn) ← (if fn then '(p, fn, sn) ← pick next pressure0; Some (if fp then Rmin pressure p else p, fn, sn) else Some (pressure, fn, sn));
        let dP := pressure - pressure0 in
        b ← last c1; v ← last c2;
        t ← (match prev with
             | Some _ => w ← w; push t (pressure0 + dP) (b + dP * (fst sp + w * (fst sn - fst sp))) (v + dP * (snd sp + w * (snd sn - snd sp)))
             | None => push t (pressure0 + dP) (b + dP * fst sn) (v + dP * snd sn)
             end);
        extend fuel prev next w t fp fn sp sn
    end
  else Some t.
(** One turn of the loop over records, SinglePvtLiveOil.cpp:81-157; [rs] is the column
    of solution factors. *)
Definition fill_record (fuel : nat) (rs : list R) (i : nat) (st : list (list (list R)) * option nat * nat) : option (list (list (list R)) * option nat * nat) :=
  let '(und, iprev, inext) := st in
  s ← und_size und i;
  if decide (1 < s)%nat then Some (und, Some i, inext) else
  '(iprev, inext) ← (if decide (inext < i)%nat then k ← find_next (length und) und (i + 1); Some (Some inext, k) else Some (iprev, inext));
  let fp := bool_decide (is_Some iprev) in
  prev ← (match iprev with Some k => t ← und !! k; Some (Some t) | None => Some None end);
  next ← und !! inext;
  w ← (match iprev with
       | Some k => ri ← rs !! i; rp ← rs !! k; rn ← rs !! inext; w ← rdiv (ri - rp) (rn - rp); Some (Some w)
       | None => Some None end);
  t ← und !! i;
  t ← extend fuel prev next w t fp true (0, 0) (0, 0);
  und ← upd und i t;
  Some (und, iprev, inext).
(** Constructor, SinglePvtLiveOil.cpp:40-158. *)
Definition oil_make (fuel : nat) (pvto : list (list (list R))) : option live :=
  match pvto with
  | [recs] =>
      let sz := length recs in
      p ← column recs 1 false; b ← column recs 2 true; mu ← column recs 3 false; rs ← column recs 0 false;
      und ← mapM (und_table true) recs;
      inext ← find_next sz und 1;
      if decide (sz ≤ inext)%nat then None else
      '(und, _, _) ← for_loop sz 0 (fill_record fuel rs) (und, None, inext);
      Some (Live [p; b; mu; rs] und)
  | _ => None
  end.
