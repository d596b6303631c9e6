(** * Specification vocabulary for the TCP layer (C83, C84, C85)

    What the sentences of the three properties mean; nothing about how the code works. *)
From stdpp Require Import list.
From Coq Require Import ZArith.
From Verif Require Import Tcp_Model.

(** ** Reading: a client that makes these calls and stops at the first exception.
    The buffers it got, the exception if there was one, and the connection afterwards. *)
Fixpoint reads {byte} (calls : list (nat * policy * answer)) (s : sock byte) : list (list byte) * option exception * sock byte :=
  match calls with
  | [] => ([], None, s)
  | (n, p, a) :: r =>
      match blocking_read n p a s with
      | (Throws e, s') => ([], Some e, s')
      | (Returns l, s') => let '(ls, e, s'') := reads r s' in (l :: ls, e, s'')
      end
  end.
(** The exception says that this call consumed nothing. *)
Definition says_empty (e : exception) : Prop := e = EmptyConnectionResetByPeer ∨ e = EmptySocketReadException.
(** The exception says that the peer reset the connection. *)
Definition says_reset (e : exception) : Prop := e = EmptyConnectionResetByPeer ∨ e = ConnectionResetByPeer.

(** ** Descriptors, seen by the operating system: is [fd] open after these events? *)
Definition live (fd : nat) (l : list fd_event) : bool :=
  fold_left (λ b e, match e with
                    | Opened x => if decide (x = fd) then true else b
                    | Closed x => if decide (x = fd) then false else b
                    | _ => b
                    end) l false.
(** Nothing is used or closed unless it is open at that time, and nothing is opened twice. *)
Definition disciplined (l : list fd_event) : Prop :=
  ∀ pre e post, l = pre ++ e :: post →
    match e with
    | Opened fd => live fd pre = false
    | Used fd | Closed fd => live fd pre = true
    | _ => True
    end.
(** The uses of the handles in which nothing leaks: no descriptor 0, setsockopt() succeeds, and a handle is assigned to
    only when it has been moved from. *)
Definition careful (l : list fd_op) : Prop :=
  ∀ pre o post ev s, l = pre ++ o :: post → fd_run pre no_handles = Some (ev, s) →
    match o with
    | Create _ fd | Accept _ fd | CreateUnbound fd => fd ≠ 0
    | CreateFails _ => False
    | MoveAssign h _ => handles s h = Some None
    | _ => True
    end.

(** ** Ports *)
Definition valid (ports : list nat) (p : picker) : Prop := order p ≡ₚ ports ∧ index p < length ports.
(** The shuffle reorders. *)
Definition shuffles (shuffle : nat → list nat → list nat) : Prop := ∀ n l, shuffle n l ≡ₚ l.
(** The ports to choose from. *)
Definition the_ports : list nat := seq (Z.to_nat 25000) (Z.to_nat 4001).
(** What a thread can have in hand after any number of reservations, whatever the random numbers were and whatever was
    busy at the time. *)
Inductive reachable : picker → Prop :=
| reachable_new : reachable new_picker
| reachable_next p shuffle try fuel hint l port p' :
    reachable p → shuffles shuffle → reserve_local_port shuffle try fuel hint p = Some (l, Found port p') → reachable p'.
