(** * Model of the keepalives of Claire: [karl/claire.h]

    The thread that sends the keepalives, any number of threads that call Register, ForceSendKeepalive and SetKarlLocator (handlers of HTTP
    requests, ServeCurrent 495-513, call the last two), and the destructor; they are interleaved between accesses to what they share.
    Left out: what the keepalives say, the status_mutex_, the callbacks to the user, Karl's answers (a keepalive takes any time, and succeeds
    or not; for the thread that makes no difference), the destruction of the members after the destructor's body. *)
From stdpp Require Import gmap list.

Inductive who := Keeper | User (n : nat) | Destructor.
Global Instance who_eq_dec : EqDecision who. Proof. solve_decision. Defined.

Inductive call := Register (confirm : bool) | Force (wait : bool) | SetKarl (l : nat) (wait : bool).

(** The keepalive thread, 420-470; [d] is when the waiting is to end. *)
Inductive kpc :=
| KNone                     (* there is no thread yet *)
| KStart                    (* 341: to set keepalive_thread_running_ *)
| KTop                      (* 422: to test destructing_ *)
| KLock                     (* 423: to lock keepalive_mutex_ *)
| KPlan                     (* 427-434: to compute the time of the next keepalive *)
| KPred (d : Z)             (* 435-437: to evaluate the predicate of wait_for *)
| KBlock (d : Z)            (* the predicate was false: to unlock the mutex and to wait, in one step *)
| KSleep (d : Z)
| KWoken (d : Z)            (* notified: to lock the mutex again *)
| KTimedOut                 (* to lock the mutex again, for the last time *)
| KCheck                    (* 440: to test destructing_ *)
| KClear                    (* 444-446: to reset the flag *)
| KSend                     (* 449: to send a keepalive *)
| KSending                  (* 380: in HTTP(POST(...)) *)
| KSent                     (* 455-458, and the end of the section *)
| KBreak                    (* 441: to lock keepalive_thread_running_status_mutex_ *)
| KDone.
Global Instance kpc_eq_dec : EqDecision kpc. Proof. solve_decision. Defined.

(** A thread that calls something. *)
Inductive cpc :=
| RLock (confirm : bool)    (* 179: Register, to lock keepalive_mutex_ *)
| RBody (confirm : bool)    (* 180-192 *)
| RSending                  (* 191: in HTTP(POST(...)) *)
| RStart                    (* 335: to lock keepalive_thread_running_status_mutex_ *)
| RRunning                  (* 336-339, 351-355 *)
| RSpin                     (* 344-349 *)
| RBeacon                   (* 195, and the end of the section *)
| SLock (l : nat) (w : bool)   (* 240-243: SetKarlLocator, to lock keepalive_mutex_ *)
| FLock (w : bool)          (* 203: ForceSendKeepalive, to lock keepalive_thread_running_status_mutex_ *)
| FRunning (w : bool)       (* 204-206, 336-339 *)
| FSpin (w : bool)          (* 344-349 *)
| FReset (w : bool)         (* 210-213 *)
| FFlag (w : bool)          (* 215 *)
| FNotify (w : bool)        (* 216-219 *)
| FWait                     (* 222-228 *)
| CReturned
| CThrew.
Global Instance cpc_eq_dec : EqDecision cpc. Proof. solve_decision. Defined.

(** The destructor, 128-147. *)
Inductive dpc := DNone | DLock | DSignal | DTest | DNotify | DUnlock | DJoin | DDelete | DDone.
Global Instance dpc_eq_dec : EqDecision dpc. Proof. solve_decision. Defined.

Record attempt := Attempt { a_time : Z; a_karl : nat; a_by : who }.

Record state := State {
  time : Z;
  running : bool;               (* keepalive_thread_running_ *)
  destructing : bool;           (* destructing_ *)
  flag : bool;                  (* keepalive_thread_force_wakeup_ *)
  sent : bool;                  (* keepalive_sent_ *)
  beacon : bool;                (* in_beacon_mode_ *)
  karl : nat;                   (* karl_ and karl_keepalive_route_ *)
  last : Z;                     (* last_keepalive_attempt_result_.timestamp *)
  km : option who;              (* who holds keepalive_mutex_ *)
  rm : option who;              (* who holds keepalive_thread_running_status_mutex_ *)
  kp : kpc;
  users : gmap nat cpc;
  dp : dpc;
  log : list attempt;           (* the POST requests to Karl *)
  deleted : bool;               (* whether the DELETE request has been sent *)
  exited : bool }.              (* 355: std::exit(-1) *)

Definition init (t : Z) : state := State t false false false false false 0 0 None None KNone ∅ DNone [] false false.

Definition set_time v s := State v (running s) (destructing s) (flag s) (sent s) (beacon s) (karl s) (last s) (km s) (rm s) (kp s) (users s) (dp s) (log s) (deleted s) (exited s).
Definition set_running v s := State (time s) v (destructing s) (flag s) (sent s) (beacon s) (karl s) (last s) (km s) (rm s) (kp s) (users s) (dp s) (log s) (deleted s) (exited s).
Definition set_destructing v s := State (time s) (running s) v (flag s) (sent s) (beacon s) (karl s) (last s) (km s) (rm s) (kp s) (users s) (dp s) (log s) (deleted s) (exited s).
Definition set_flag v s := State (time s) (running s) (destructing s) v (sent s) (beacon s) (karl s) (last s) (km s) (rm s) (kp s) (users s) (dp s) (log s) (deleted s) (exited s).
Definition set_sent v s := State (time s) (running s) (destructing s) (flag s) v (beacon s) (karl s) (last s) (km s) (rm s) (kp s) (users s) (dp s) (log s) (deleted s) (exited s).
Definition set_beacon v s := State (time s) (running s) (destructing s) (flag s) (sent s) v (karl s) (last s) (km s) (rm s) (kp s) (users s) (dp s) (log s) (deleted s) (exited s).
Definition set_karl v s := State (time s) (running s) (destructing s) (flag s) (sent s) (beacon s) v (last s) (km s) (rm s) (kp s) (users s) (dp s) (log s) (deleted s) (exited s).
Definition set_km v s := State (time s) (running s) (destructing s) (flag s) (sent s) (beacon s) (karl s) (last s) v (rm s) (kp s) (users s) (dp s) (log s) (deleted s) (exited s).
Definition set_rm v s := State (time s) (running s) (destructing s) (flag s) (sent s) (beacon s) (karl s) (last s) (km s) v (kp s) (users s) (dp s) (log s) (deleted s) (exited s).
Definition set_kp v s := State (time s) (running s) (destructing s) (flag s) (sent s) (beacon s) (karl s) (last s) (km s) (rm s) v (users s) (dp s) (log s) (deleted s) (exited s).
Definition set_user n v s := State (time s) (running s) (destructing s) (flag s) (sent s) (beacon s) (karl s) (last s) (km s) (rm s) (kp s) (<[n := v]> (users s)) (dp s) (log s) (deleted s) (exited s).
Definition set_dp v s := State (time s) (running s) (destructing s) (flag s) (sent s) (beacon s) (karl s) (last s) (km s) (rm s) (kp s) (users s) v (log s) (deleted s) (exited s).
Definition set_deleted v s := State (time s) (running s) (destructing s) (flag s) (sent s) (beacon s) (karl s) (last s) (km s) (rm s) (kp s) (users s) (dp s) (log s) v (exited s).
Definition set_exited v s := State (time s) (running s) (destructing s) (flag s) (sent s) (beacon s) (karl s) (last s) (km s) (rm s) (kp s) (users s) (dp s) (log s) (deleted s) v.
(** 362-380: SendKeepaliveToKarl, up to the request. *)
Definition send (w : who) s := State (time s) (running s) (destructing s) (flag s) (sent s) (beacon s) (karl s) (time s) (km s) (rm s) (kp s) (users s) (dp s) (log s ++ [Attempt (time s) (karl s) w]) (deleted s) (exited s).

(** A mutex is locked only when nobody holds it. *)
Definition lock_km w s := match km s with None => Some (set_km (Some w) s) | Some _ => None end.
Definition lock_rm w s := match rm s with None => Some (set_rm (Some w) s) | Some _ => None end.
(** A section that is one step: the mutex has to be free. *)
Definition free_km s := match km s with None => Some s | Some _ => None end.
(** keepalive_condition_variable_.notify_all(), as far as the keepalive thread is concerned (the others look every millisecond). *)
Definition notify s := match kp s with KSleep d => set_kp (KWoken d) s | _ => s end.

(** The next step of the keepalive thread; [r] is the random number, of microseconds (428-430). *)
Definition keeper (r : Z) (s : state) : option state :=
  match kp s with
  | KNone | KDone | KSleep _ => None
  | KStart => Some (set_kp KTop (set_running true s))
  | KTop => Some (set_kp (if destructing s then KBreak else KLock) s)
  | KLock => set_kp KPlan <$> lock_km Keeper s
  | KPlan =>
      if decide (18000000 ≤ r ≤ 22000000)%Z then
        let projected := (last s + r)%Z in
        Some (set_kp (if decide (projected > time s)%Z then KPred projected else KCheck) s)
      else None
  | KPred d => Some (set_kp (if destructing s || flag s then KCheck else KBlock d) s)
  | KBlock d => Some (set_kp (KSleep d) (set_km None s))
  | KWoken d => set_kp (KPred d) <$> lock_km Keeper s
  | KTimedOut => set_kp KCheck <$> lock_km Keeper s
  | KCheck => Some (if destructing s then set_kp KBreak (set_km None s) else set_kp KClear s)
  | KClear => Some (set_kp KSend (set_flag false s))
  | KSend => Some (set_kp KSending (send Keeper s))
  | KSending => Some (set_kp KSent s)
  | KSent => Some (set_kp KTop (set_km None (set_sent true s)))
  | KBreak => match rm s with None => Some (set_kp KDone (set_running false s)) | Some _ => None end
  end.

(** The next step of a caller; [ok]: whether Karl's answer to the request, if that is what it is waiting for, is a success. *)
Definition user (n : nat) (ok : bool) (s : state) : option state :=
  let goto p s := set_user n p s in
  match users s !! n with
  | None | Some CReturned | Some CThrew => None
  | Some (RLock c) => goto (RBody c) <$> lock_km (User n) s
  | Some (RBody c) =>
      if beacon s then Some (goto CReturned (set_km None s))
      else Some (if c then goto RSending (send (User n) s) else goto RStart s)
  | Some RSending => Some (if ok then goto RStart s else goto CThrew (set_km None s))
  | Some RStart => goto RRunning <$> lock_rm (User n) s
  | Some RRunning =>
      if destructing s then Some (goto RBeacon (set_rm None s))
      else if running s then Some (set_exited true s)
      else Some (goto RSpin (set_kp KStart s))
  | Some RSpin => if running s then Some (goto RBeacon (set_rm None s)) else None
  | Some RBeacon => Some (goto CReturned (set_km None (set_beacon true s)))
  | Some (SLock l w) => goto (FLock w) <$> (set_karl l <$> free_km s)
  | Some (FLock w) => goto (FRunning w) <$> lock_rm (User n) s
  | Some (FRunning w) =>
      if running s || destructing s then Some (goto (FReset w) (set_rm None s)) else Some (goto (FSpin w) (set_kp KStart s))
  | Some (FSpin w) => if running s then Some (goto (FReset w) (set_rm None s)) else None
  | Some (FReset w) => if w then goto (FFlag w) <$> (set_sent false <$> free_km s) else Some (goto (FFlag w) s)
  | Some (FFlag w) => Some (goto (FNotify w) (set_flag true s))
  | Some (FNotify w) => goto (if w then FWait else CReturned) <$> (notify <$> free_km s)
  | Some FWait => s' ← free_km s; Some (if sent s' then goto CReturned s' else s')
  end.

(** The next step of the destructor. *)
Definition destructor (s : state) : option state :=
  match dp s with
  | DNone | DDone => None
  | DLock => set_dp DSignal <$> lock_rm Destructor s                           (* 129 *)
  | DSignal => Some (set_dp DTest (set_destructing true s))                    (* 132 *)
  | DTest => Some (if running s then set_dp DNotify s else set_dp DDone (set_rm None s))      (* 134 *)
  | DNotify => set_dp DUnlock <$> (notify <$> free_km s)                       (* 135-138 *)
  | DUnlock => Some (set_dp DJoin (set_rm None s))                             (* 139 *)
  | DJoin => if decide (kp s = KDone) then Some (set_dp DDelete s) else None   (* 140 *)
  | DDelete => Some (set_dp DDone (set_deleted true s))                        (* 144 *)
  end.

Inductive action :=
| Call (n : nat) (c : call)         (* thread n, which is not calling anything, calls something *)
| Users (n : nat) (ok : bool)
| Keeps (r : Z)
| Timeout                           (* the waiting of the keepalive thread is over *)
| Spurious                          (* condition variables may wake up of themselves *)
| Tick (t : Z)                      (* time passes *)
| Destroy                           (* the destructor is called *)
| Destroys.

Definition start (c : call) : cpc := match c with Register b => RLock b | Force w => FLock w | SetKarl l w => SLock l w end.
Definition idle (p : option cpc) : bool := match p with None | Some CReturned | Some CThrew => true | _ => false end.

Definition step (a : action) (s : state) : option state :=
  if exited s then None else
  match a with
  | Call n c => if idle (users s !! n) then Some (set_user n (start c) s) else None
  | Users n ok => user n ok s
  | Keeps r => keeper r s
  | Timeout => match kp s with KSleep d => if decide (d ≤ time s)%Z then Some (set_kp KTimedOut s) else None | _ => None end
  | Spurious => match kp s with KSleep d => Some (set_kp (KWoken d) s) | _ => None end
  | Tick t => if decide (0 ≤ t)%Z then Some (set_time (time s + t)%Z s) else None
  | Destroy => if decide (dp s = DNone) then Some (set_dp DLock s) else None
  | Destroys => destructor s
  end.
Definition run (tr : list action) (s : state) : option state := foldl (λ s a, s ≫= step a) (Some s) tr.
