(** * Model of FnCAS optimizers: [fncas/fncas/optimize.h], [fncas/fncas/mathutil.h]

    The optimizers are modelled over any arithmetic: the operations on [double_t] are the fields of a record.  The objective
    function [f] and its gradient [g] are arbitrary functions (what FnCAS makes of a formula is C71-C74, C80).  Logging and statistics
    are left out. *)
From Coq Require Import List Bool Arith.
Import ListNotations.

(** The operations on [double_t] that are used, and the literals. *)
Record arith := Arith {
  num : Type;
  lt : num -> num -> bool;            (* a < b *)
  add : num -> num -> num;
  sub : num -> num -> num;
  mul : num -> num -> num;
  div : num -> num -> num;
  neg : num -> num;                   (* also for [x *= -1] and [x * sign]: multiplication by minus one is exact *)
  abs : num -> num;
  sqrt : num -> num;
  normal : num -> bool;               (* mathutil.h 51, IsNormal: neither NaN nor infinite nor denormal *)
  zero : num;
  one : num;
  tiny : num;                         (* 1e-100 *)
  micro : num }.                      (* 1e-6 *)

Section Optimizers.
Context (A : arith).
Notation num := (num A).
Definition point : Type := list num.
(** mathutil.h 44-49, ValueAndPoint. *)
Record vp := VP { value : num; at_point : point }.

(** ** mathutil.h *)
(** 60-63 and twice more: "fight the underflow". *)
Definition fight (x : num) : num := if lt A (abs A x) (tiny A) then zero A else x.
Fixpoint zip_with (h : num -> num -> num) (a b : point) : point :=
  match a, b with x :: a, y :: b => fight (h x y) :: zip_with h a b | a, _ => a end.
Definition sum_vectors (a b : point) : point := zip_with (add A) a b.                                            (* 55-68 *)
Definition sum_vectors1 (a b : point) (kb : num) : point := zip_with (fun x y => add A x (mul A kb y)) a b.      (* 70-85 *)
Definition sum_vectors2 (a b : point) (ka kb : num) : point := zip_with (fun x y => add A (mul A ka x) (mul A kb y)) a b.   (* 87-103 *)
(** 105-116, with std::inner_product. *)
Fixpoint inner_product (acc : num) (a b : point) : num :=
  match a, b with x :: a, y :: b => inner_product (add A acc (mul A x y)) a b | _, _ => acc end.
Definition dot (a b : point) : num := inner_product (zero A) a b.
Definition l2norm (a : point) : num := dot a a.
Definition flip_sign (a : point) : point := map (neg A) a.                                                       (* 118-121 *)
(** 125-132. *)
Definition polak_ribiere (g g_prev : point) : num :=
  let beta := div A (sub A (l2norm g) (dot g g_prev)) (l2norm g_prev) in if normal A beta then beta else zero A.

Inductive direction := Minimize | Maximize.
(** The sign: [value *= -1] if maximizing. *)
Definition signed (d : direction) (v : num) : num := match d with Minimize => v | Maximize => neg A v end.
Definition signed_gradient (d : direction) (g : point) : point := match d with Minimize => g | Maximize => flip_sign g end.

(** 168-177: the loop of the line search; [n] is what is left of [max_steps]. *)
Fixpoint backtrack (d : direction) (f : point -> num) (p dir : point) (alpha beta current_value norm : num)
    (n : nat) (t : num) (test : vp) : vp :=
  if lt A (sub A current_value (mul A (mul A alpha t) norm)) (value test) || negb (normal A (value test)) then
    let t' := mul A t beta in                                                  (* 170 *)
    let q := sum_vectors1 p dir t' in                                          (* 171 *)
    let test' := VP (signed d (f q)) q in                                      (* 173 *)
    match n with
    | O => test'                                                               (* 174-176 *)
    | S n => backtrack d f p dir alpha beta current_value norm n t' test'
    end
  else test.
(** 138-190; [None] is BacktrackingException. *)
Definition backtracking (d : direction) (f : point -> num) (g : point -> point) (p dir : point) (alpha beta : num) (max_steps : nat) : option vp :=
  let current_value := signed d (f p) in                                       (* 151 *)
  let q := sum_vectors p dir in                                                (* 152 *)
  let norm := l2norm (signed_gradient d (g p)) in                              (* 160-164 *)
  let r := backtrack d f p dir alpha beta current_value norm max_steps (one A) (VP (signed d (f q)) q) in
  if normal A (value r) then Some r else None.                                 (* 179-189 *)

(** ** optimize.h *)
(** 134-158. *)
Definition no_improvement (next current min_relative min_absolute : num) : bool :=
  if lt A (sub A current next) min_absolute then true
  else if lt A (micro A) current && lt A (micro A) next then lt A (mul A current (sub A (one A) min_relative)) next
  else if lt A current (neg A (micro A)) && lt A next (neg A (micro A)) then lt A (mul A current (add A (one A) min_relative)) next
  else false.

(** The parameters (GetValue); 410-414, 544-552, 691-699 have the defaults.  [no_improvement_steps_to_terminate] is a double there; the
    number of steps it is compared with is an integer.  [step_factor] of the first optimizer is read and never used.  *)
Record params := Params {
  max_steps : nat;
  min_steps : nat;
  bt_alpha : num; bt_beta : num; bt_max_steps : nat;
  grad_eps : num;
  min_absolute : num; min_relative : num;
  patience : nat;                                    (* no_improvement_steps_to_terminate *)
  stopping : nat -> vp -> point -> bool }.           (* 260-269: the criterion of the user says StopOptimization *)

(** OptimizationResult, 126-130; [progress] is of TrackIteration, in the order of the iterations. *)
Record result := Result { final : vp; iterations : nat; progress : list num }.
Inductive outcome := Done (r : result) | Throws.     (* Throws: FnCASOptimizationException *)

(** *** GradientDescentOptimizer, 400-518 *)
Definition min_vp (a b : vp) : vp := if lt A (value b) (value a) then b else a.       (* std::min *)
(** 469-484: the three steps. *)
Fixpoint candidates (d : direction) (f : point -> num) (p gradient : point) (steps : list num) (best : vp) (valid : bool) : vp * bool :=
  match steps with
  | [] => (best, valid)
  | step :: steps =>
      let q := sum_vectors1 p gradient (neg A step) in
      if normal A (f q) then candidates d f p gradient steps (min_vp best (VP (signed d (f q)) q)) true
      else candidates d f p gradient steps best valid
  end.
(** 443-500; [todo] is what is left of max_steps. *)
Fixpoint gd_loop (d : direction) (P : params) (f : point -> num) (g : point -> point) (steps : list num)
    (todo : nat) (done_ : nat) (stale : nat) (current : vp) (prog : list num) : outcome :=
  match todo with
  | O => Done (Result current done_ prog)
  | S todo =>
      let prog := prog ++ [f (at_point current)] in                                   (* 454 *)
      let gradient := signed_gradient d (g (at_point current)) in                     (* 458-461 *)
      if stopping P done_ current gradient then Done (Result current done_ prog)      (* 463-467 *)
      else
        let '(best, valid) := candidates d f (at_point current) gradient steps current false in
        if negb valid then Throws                                                     (* 485-487 *)
        else if no_improvement (value best) (value current) (min_relative P) (min_absolute P) then
          if patience P <=? S stale then Done (Result current done_ prog)             (* 488-494 *)
          else gd_loop d P f g steps todo (S done_) (S stale) best prog
        else gd_loop d P f g steps todo (S done_) 0 best prog                         (* 495-498 *)
  end.
Definition restore (d : direction) (o : outcome) : outcome :=                          (* 502-504: the sign of the result *)
  match o with Done (Result c i p) => Done (Result (VP (signed d (value c)) (at_point c)) i p) | Throws => Throws end.
(** 400-518; [steps] is {0.01, 0.05, 0.2} (471). *)
Definition gradient_descent (d : direction) (P : params) (steps : list num) (f : point -> num) (g : point -> point) (start : point) : outcome :=
  restore d (gd_loop d P f g steps (max_steps P) 0 0 (VP (signed d (f start)) start) []).

(** *** GradientDescentOptimizerBT, 534-664 *)
Fixpoint bt_loop (d : direction) (P : params) (f : point -> num) (g : point -> point)
    (todo : nat) (done_ : nat) (stale : nat) (current : vp) (prog : list num) : outcome :=
  match todo with
  | O => Done (Result current done_ prog)
  | S todo =>
      let prog := prog ++ [f (at_point current)] in                                    (* 599 *)
      let gradient := signed_gradient d (g (at_point current)) in                      (* 602-605 *)
      if stopping P done_ current gradient then Done (Result current done_ prog)
      else if lt A (sqrt A (l2norm gradient)) (grad_eps P) && (min_steps P <=? done_) then Done (Result current done_ prog)   (* 614-617 *)
      else
        match backtracking d f g (at_point current) (flip_sign gradient) (bt_alpha P) (bt_beta P) (bt_max_steps P) with
        | None => Done (Result current done_ prog)                                     (* 641-644 *)
        | Some next =>
            if no_improvement (value next) (value current) (min_relative P) (min_absolute P) then
              if patience P <=? S stale then Done (Result current done_ prog)          (* 630-635 *)
              else bt_loop d P f g todo (S done_) (S stale) next prog
            else bt_loop d P f g todo (S done_) 0 next prog                            (* 636-640 *)
        end
  end.
Definition gradient_descent_bt (d : direction) (P : params) (f : point -> num) (g : point -> point) (start : point) : outcome :=
  restore d (bt_loop d P f g (max_steps P) 0 0 (VP (signed d (f start)) start) []).

(** *** ConjugateGradientOptimizer, 680-825 *)
Fixpoint cg_loop (d : direction) (P : params) (f : point -> num) (g : point -> point)
    (todo : nat) (done_ : nat) (stale : nat) (current : vp) (gradient s : point) (prog : list num) : outcome :=
  match todo with
  | O => Done (Result current done_ prog)
  | S todo =>
      if stopping P done_ current gradient then Done (Result current done_ prog)       (* 748-752 *)
      else
        let prog := prog ++ [f (at_point current)] in                                  (* 755 *)
        match backtracking d f g (at_point current) s (bt_alpha P) (bt_beta P) (bt_max_steps P) with
        | None => Done (Result current done_ prog)                                     (* 802-805 *)
        | Some next =>
            let new_gradient := signed_gradient d (g (at_point next)) in               (* 775-778 *)
            let pr := polak_ribiere new_gradient gradient in
            let omega := if lt A pr (zero A) then zero A else pr in                    (* 781-782, std::max *)
            let s' := sum_vectors2 s new_gradient omega (neg A (one A)) in             (* 783 *)
            let continue_ stale' :=                                                    (* 795-801 *)
              if lt A (sqrt A (l2norm s')) (grad_eps P) && (min_steps P <=? done_) then Done (Result next done_ prog)
              else cg_loop d P f g todo (S done_) stale' next new_gradient s' prog in
            if no_improvement (value next) (value current) (min_relative P) (min_absolute P) then
              if patience P <=? S stale then Done (Result current done_ prog) else continue_ (S stale)      (* 785-790 *)
            else continue_ 0
        end
  end.
Definition conjugate_gradient (d : direction) (P : params) (f : point -> num) (g : point -> point) (start : point) : outcome :=
  if normal A (f start) then                                                           (* 726-728 *)
    let gradient := signed_gradient d (g start) in                                     (* 732-737 *)
    restore d (cg_loop d P f g (max_steps P) 0 0 (VP (signed d (f start)) start) gradient (flip_sign gradient) [])
  else Throws.
End Optimizers.
