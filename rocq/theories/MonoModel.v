(** Model of opm/core/utility/MonotCubicInterpolator.{hpp,cpp}.  double is
    modelled by [R] (no rounding; inf and nan, which addPair and evaluate
    reject, do not exist).  std::map<double,double> is modelled by its
    contract: an association list, strictly ordered by the key, on which
    [mset] (m[k] = v), [mget] (m[k] for a present key) and [mlower]
    (lower_bound) act.  Not modelled: reading a data file, toString. *)
From Coq Require Import Reals.
From Verif Require Import Base TableModel.
Local Open Scope R_scope.

Notation rmap := (list (R * R)).

(** m[k] = v of std::map *)
Fixpoint mset (m : rmap) (k v : R) : rmap :=
  match m with
  | [] => [(k, v)]
  | p :: m' => if Rlt_dec k p.1 then (k, v) :: p :: m'
               else if Req_EM_T k p.1 then (k, v) :: m' else p :: mset m' k v
  end.
(** m[k] read for a key in the map.  operator[] inserts 0 for a missing key;
    here that is [None], and never happens. *)
Fixpoint mget (m : rmap) (k : R) : option R :=
  match m with [] => None | p :: m' => if Req_EM_T k p.1 then Some p.2 else mget m' k end.
(** the position of lower_bound(k) *)
Fixpoint mlower (m : rmap) (k : R) : nat :=
  match m with [] => 0 | p :: m' => if Rlt_dec p.1 k then S (mlower m' k) else 0 end.

(** MonotCubicInterpolator.hpp:497-520 *)
Record mci := MCI {
  data : rmap;
  ddata : rmap;
  sm_cached : bool;   (* strictlyMonotoneCached *)
  m_cached : bool;    (* monotoneCached *)
  sm : bool;          (* strictlyMonotone *)
  mono : bool;        (* monotone *)
  sdec : bool;        (* strictlyDecreasing *)
  sinc : bool;        (* strictlyIncreasing *)
  dec : bool;         (* decreasing *)
  inc : bool }.       (* increasing *)

(** MonotCubicInterpolator.hpp:527-538 *)
Definition H00 (t : R) : R := 2*t*t*t - 3*t*t + 1.
Definition H10 (t : R) : R := t*t*t - 2*t*t + t.
Definition H01 (t : R) : R := -2*t*t*t + 3*t*t.
Definition H11 (t : R) : R := t*t*t - t*t.

(** isMonotoneCoeff, MonotCubicInterpolator.hpp:570-576 *)
Definition is_monotone_coeff (alpha beta : R) : bool :=
  if Rle_dec (alpha*alpha + beta*beta) 9 then true else false.

(** The loop over the inner points of computeSimpleDerivatives,
    MonotCubicInterpolator.cpp:646-669; [l] starts at lastpoint. *)
Fixpoint simple_inner (l : rmap) (dd : rmap) : option rmap :=
  match l with
  | p :: ((q :: r :: _) as l') =>
      a ← rdiv (r.2 - q.2) (2 * (r.1 - q.1));
      b ← rdiv (q.2 - p.2) (2 * (q.1 - p.1));
      simple_inner l' (mset dd q.1 (a + b))
  | _ => Some dd
  end.

(** computeSimpleDerivatives, MonotCubicInterpolator.cpp:619-672.  With less
    than two points it decrements begin(), which is [None] here. *)
Definition simple_derivatives (d : rmap) : option rmap :=
  match d, reverse d with
  | p :: q :: _, z :: y :: _ =>
      diff ← rdiv (q.2 - p.2) (q.1 - p.1);
      let dd := mset [] p.1 diff in
      diff ← rdiv (z.2 - y.2) (z.1 - y.1);
      let dd := mset dd z.1 diff in
      if decide (2 < length d)%nat then simple_inner d dd else Some dd
  | _, _ => None
  end.

(** adjustDerivativesForMonotoneness, MonotCubicInterpolator.cpp:675-711;
    [d] starts at point. *)
Fixpoint adjust (d : rmap) (dd : rmap) : option rmap :=
  match d with
  | p :: ((q :: _) as d') =>
      delta ← rdiv (q.2 - p.2) (q.1 - p.1);
      dd ←
        (if Rlt_dec (Rabs delta) (/ 10 ^ 14) then Some (mset (mset dd p.1 0) q.1 0)
         else
           dp ← mget dd p.1; alpha ← rdiv dp delta;
           dq ← mget dd q.1; beta ← rdiv dq delta;
           if is_monotone_coeff alpha beta then Some dd
           else
             tau ← rdiv 3 (R_sqrt.sqrt (alpha*alpha + beta*beta));
             Some (mset (mset dd p.1 (tau*alpha*delta)) q.1 (tau*beta*delta)));
      adjust d' dd
  | _ => Some dd
  end.

(** The first while loop of computeInternalFunctionData, cpp:419-431: the
    list from xf_iterator on, and whether the loop was entered. *)
Fixpoint skip_flat (d : rmap) : rmap * bool :=
  match d with
  | p :: ((q :: _) as d') => if Req_EM_T p.2 q.2 then ((skip_flat d').1, true) else (d, false)
  | _ => (d, false)
  end.

(** The while loop for decreasing data, cpp:442-454: (monotone,
    strictlyMonotone, strictlyDecreasing); [d] starts at the incremented
    xf_iterator. *)
Fixpoint scan_dec (d : rmap) (fl : bool * bool * bool) : bool * bool * bool :=
  match d with
  | p :: ((q :: _) as d') =>
      if Rlt_dec p.2 q.2 then (false, false, false)
      else if Rle_dec p.2 q.2 then scan_dec d' (fl.1.1, false, false) else scan_dec d' fl
  | _ => fl
  end.
(** The while loop for increasing data, cpp:462-474. *)
Fixpoint scan_inc (d : rmap) (fl : bool * bool * bool) : bool * bool * bool :=
  match d with
  | p :: ((q :: _) as d') =>
      if Rgt_dec p.2 q.2 then (false, false, false)
      else if Rge_dec p.2 q.2 then scan_inc d' (fl.1.1, false, false) else scan_inc d' fl
  | _ => fl
  end.

(** The flags, MonotCubicInterpolator.cpp:405-485: (monotone,
    strictlyMonotone, strictlyDecreasing, strictlyIncreasing, decreasing,
    increasing).  [None] is the throw at cpp:480. *)
Definition mono_flags (d : rmap) : option (bool * bool * bool * bool * bool * bool) :=
  let '(l, flat) := skip_flat d in
  match l with
  | p :: ((q :: _) as l') =>
      if Rgt_dec p.2 q.2 then
        let '(m, s_m, sd) := scan_dec l' (true, negb flat, true) in Some (m, s_m, sd, false, true, false)
      else if Rlt_dec p.2 q.2 then
        let '(m, s_m, si) := scan_inc l' (true, negb flat, true) in Some (m, s_m, false, si, false, true)
      else None
  | _ => Some (true, negb flat, negb flat, negb flat, true, true)
  end.

(** computeInternalFunctionData, MonotCubicInterpolator.cpp:385-501. *)
Definition compute (s : mci) : option mci :=
  let d := data s in
  if decide (length d <= 1)%nat then Some s else
  '(m, s_m, sd, si, de, ic) ← mono_flags d;
  dd ← simple_derivatives d;
  dd ← (if m : bool then adjust d dd else Some dd);
  Some (MCI d dd true true s_m m sd si de ic).

(** The default constructor, hpp:147: no data, the flags are not initialised
    ([junk]). *)
Definition mci_empty (junk : bool * bool * (bool * bool) * (bool * bool) * (bool * bool)) : mci :=
  let '(a, b, (c, d), (e, f), (g, h)) := junk in MCI [] [] a b c d e f g h.
Definition with_data (s : mci) (d : rmap) : mci :=
  MCI d (ddata s) (sm_cached s) (m_cached s) (sm s) (mono s) (sdec s) (sinc s) (dec s) (inc s).
Definition uncached (s : mci) : mci :=
  MCI (data s) (ddata s) false false (sm s) (mono s) (sdec s) (sinc s) (dec s) (inc s).

(** The constructor from two vectors, cpp:100-113. *)
Fixpoint set_all (xs fs : list R) (m : rmap) : rmap :=
  match xs, fs with x :: xs, f :: fs => set_all xs fs (mset m x f) | _, _ => m end.
Definition mci_new (junk : bool * bool * (bool * bool) * (bool * bool) * (bool * bool)) (xs fs : list R) : option mci :=
  if decide (length xs = length fs) then compute (with_data (mci_empty junk) (set_all xs fs [])) else None.

(** addPair, cpp:168-180 *)
Definition add_pair (s : mci) (x f : R) : option mci := compute (with_data s (mset (data s) x f)).

(** evaluate, cpp:183-231.  [None]: dereferencing begin() of an empty map. *)
Definition evaluate (s : mci) (x : R) : option R :=
  let i := mlower (data s) x in
  if decide (i = 0%nat) then p ← head (data s); Some p.2
  else if decide (i = length (data s)) then p ← last (data s); Some p.2
  else
    xf2 ← data s !! i;
    xf1 ← data s !! pred i;
    if decide (length (ddata s) = length (data s)) then
      t ← rdiv (x - xf1.1) (xf2.1 - xf1.1);
      let h := xf2.1 - xf1.1 in
      d1 ← mget (ddata s) xf1.1;
      d2 ← mget (ddata s) xf2.1;
      Some (xf1.2 * H00 t + d1 * H10 t * h + xf2.2 * H01 t + d2 * H11 t * h)
    else
      q ← rdiv (xf2.2 - xf1.2) (xf2.1 - xf1.1);
      Some (xf1.2 + q * (x - xf1.1)).

(** The queries, hpp:302-393: the answer and the new object. *)
Definition is_strictly_monotone (s : mci) : option (bool * mci) :=
  if sm_cached s then Some (sm s, s) else s' ← compute s; Some (sm s', s').
Definition is_monotone (s : mci) : option (bool * mci) :=
  if m_cached s then Some (mono s, s) else s' ← compute s; Some (mono s', s').
Definition is_strictly_increasing (s : mci) : option (bool * mci) :=
  if sm_cached s then Some (sm s && sinc s, s) else s' ← compute s; Some (sm s' && sinc s', s').
Definition is_monotone_increasing (s : mci) : option (bool * mci) :=
  if m_cached s then Some (mono s && inc s, s) else s' ← compute s; Some (mono s' && inc s', s').
Definition is_strictly_decreasing (s : mci) : option (bool * mci) :=
  if sm_cached s then Some (sm s && sdec s, s) else s' ← compute s; Some (sm s' && sdec s', s').
Definition is_monotone_decreasing (s : mci) : option (bool * mci) :=
  if m_cached s then Some (mono s && dec s, s) else s' ← compute s; Some (mono s' && dec s', s').

(** getMaximumF and getMinimumF, cpp:338-382; [None] is the exception. *)
Definition get_maximum_f (s : mci) : option (R * R) :=
  if decide (length (data s) <= 1)%nat then None
  else if sinc s then last (data s)
  else if sdec s then head (data s)
  else z ← last (data s);
       Some (foldl (λ maxf p, if Rgt_dec p.2 maxf.2 then p else maxf) z (data s)).
Definition get_minimum_f (s : mci) : option (R * R) :=
  if decide (length (data s) <= 1)%nat then None
  else if sinc s then head (data s)
  else if sdec s then last (data s)
  else z ← last (data s);
       Some (foldl (λ minf p, if Rlt_dec p.2 minf.2 then p else minf) z (data s)).

(** chopFlatEndpoints, cpp:510-550.  The first iteration of either loop erases
    the element at xf_iterator and then increments (decrements) that very
    iterator, which is undefined behaviour: [None]. *)
Definition chop_flat_endpoints (s : mci) (epsilon : R) : option mci :=
  if decide (length (data s) < 3)%nat then Some s else
  match data s, reverse (data s) with
  | p :: q :: _, z :: y :: _ =>
      if Rlt_dec (Rabs (p.2 - q.2)) epsilon then None
      else if Rlt_dec (Rabs (z.2 - y.2)) epsilon then None
      else compute (uncached s)
  | _, _ => None
  end.

(** The while loop of shrinkFlatAreas, cpp:600-613: [p] is xf_iterator, [l]
    starts at xf_next_iterator. *)
Fixpoint shrink (epsilon : R) (p : R * R) (l : rmap) : rmap :=
  match l with
  | [] => [p]
  | q :: l' => if Rlt_dec (Rabs (p.2 - q.2)) epsilon then shrink epsilon p l' else p :: shrink epsilon q l'
  end.
(** shrinkFlatAreas, cpp:568-615 *)
Definition shrink_flat_areas (s : mci) (epsilon : R) : option mci :=
  if decide (length (data s) < 2)%nat then Some s else
  '(b, s) ← is_strictly_monotone s;
  if b : bool then Some s else
  '(b, s) ← is_monotone s;
  if negb b then Some s else
  match data s with
  | p :: l => Some (with_data (uncached s) (shrink epsilon p l))
  | [] => None
  end.

(** scaleData, cpp:716-730 *)
Definition scale_map (factor : R) (m : rmap) : rmap := (λ p, (p.1, p.2 * factor)) <$> m.
Definition scale_data (s : mci) (factor : R) : mci :=
  MCI (scale_map factor (data s))
      (if decide (length (data s) = length (ddata s)) then scale_map factor (ddata s) else ddata s)
      (sm_cached s) (m_cached s) (sm s) (mono s) (sdec s) (sinc s) (dec s) (inc s).

(** getMissingX, cpp:304-334.  [None] is the exception.  The loop keeps the
    position of the largest jump so far; in the final expression
    (( *it ).first + ( *++it ).first)/2 the order of the two operands is
    unspecified: [left_first] tells which order the compiler chose. *)
Fixpoint missing_loop (i : nat) (d : rmap) (best : nat) (maxdiff : R) : nat * R :=
  match d with
  | p :: ((q :: _) as d') =>
      let a := Rabs (q.2 - p.2) in
      if Rgt_dec a maxdiff then missing_loop (S i) d' i a else missing_loop (S i) d' best maxdiff
  | _ => (best, maxdiff)
  end.
Definition get_missing_x (left_first : bool) (s : mci) : option (R * R) :=
  if decide (length (data s) < 2)%nat then None else
  let '(best, maxdiff) := missing_loop 0 (data s) 0 0 in
  p ← data s !! best;
  q ← data s !! S best;
  Some (if left_first then ((p.1 + q.1) / 2, maxdiff) else ((q.1 + q.1) / 2, maxdiff)).
