(** Model of [bricks/time/chrono.h]: the strictly increasing clock 92-110, and
    the mock clock 63-92 used under CURRENT_MOCK_TIME.

    - Every shared-memory access of [EpochClockGuaranteeingMonotonicity::Now] is
      one step of a transition system over any number of threads: reading the
      system clock (any value at any time), the atomic load, the
      compare-exchange, returning.
    - SIMPL: [int64_t] values are unbounded integers (the clock would have to
      pass the year 290000 to overflow). *)
From stdpp Require Import list.
From Coq Require Import ZArith.

(** Where a thread is inside Now(), chrono.h 97-108. *)
Inductive pc :=
| Idle
| Entered                      (* at the top of the do-loop *)
| HasClock (now : Z)           (* after system_clock::now() *)
| HasPrevious (now prev : Z)   (* after the load and the adjustment *)
| Done (now : Z).              (* the compare-exchange succeeded *)

(** What an observer of the calls sees. *)
Inductive event := Call (t : nat) | Return (t : nat) (us : Z).

Record clock := Clock { monotonic_now_us : Z; pcs : nat -> pc; history : list event }.

(** chrono.h 95. *)
Definition clock_init : clock := Clock 0 (λ _, Idle) [].

Definition set_pc (t : nat) (p : pc) (f : nat -> pc) : nat -> pc :=
  λ t', if decide (t' = t) then p else f t'.

Inductive step : clock -> clock -> Prop :=
| s_call t s : pcs s t = Idle ->
    step s (Clock (monotonic_now_us s) (set_pc t Entered (pcs s)) (history s ++ [Call t]))
| s_clock t s now : pcs s t = Entered ->
    step s (Clock (monotonic_now_us s) (set_pc t (HasClock now) (pcs s)) (history s))
| s_load t s now : pcs s t = HasClock now ->
    let prev := monotonic_now_us s in
    let adjusted := if decide (now > prev)%Z then now else (prev + 1)%Z in
    step s (Clock prev (set_pc t (HasPrevious adjusted prev) (pcs s)) (history s))
| s_cas_ok t s now prev : pcs s t = HasPrevious now prev -> monotonic_now_us s = prev ->
    step s (Clock now (set_pc t (Done now) (pcs s)) (history s))
| s_cas_fail t s now prev : pcs s t = HasPrevious now prev -> monotonic_now_us s ≠ prev ->
    step s (Clock (monotonic_now_us s) (set_pc t Entered (pcs s)) (history s))
| s_return t s now : pcs s t = Done now ->
    step s (Clock (monotonic_now_us s) (set_pc t Idle (pcs s)) (history s ++ [Return t now])).

Inductive reachable : clock -> Prop :=
| r_init : reachable clock_init
| r_step s s' : reachable s -> step s s' -> reachable s'.

(** The mock clock, chrono.h 63-67; Now 69-77, SetNow 79-88 ([None] is
    InconsistentSetNowException), ResetToZero 90-95. *)
Record mock := Mock { mock_now_value : Z; max_mock_now_value : Z }.
Definition mock_now (m : mock) : Z * mock :=
  (mock_now_value m,
   if decide (mock_now_value m < max_mock_now_value m)%Z
   then Mock (mock_now_value m + 1) (max_mock_now_value m) else m).
Definition mock_set_now (us max_us : Z) (m : mock) : option mock :=
  if decide (mock_now_value m <= us)%Z then Some (Mock us max_us) else None.
Definition mock_reset (m : mock) : mock := Mock 0 1000000000.
