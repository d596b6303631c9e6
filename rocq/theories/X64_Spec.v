(** What the processor and the calling convention do: the part of x86-64 (Intel SDM vol. 2; System V ABI, AMD64
    supplement) that generated code can use.  This is a specification, written from the manuals and not from /repo.

    - Memory is bytes; an instruction which touches a byte with no permission for it, whose bytes are not
      executable, or which is not one of those decoded here, is a fault ([None]).
    - Registers are numbered as in the encoding: 0 rax, 1 rcx, 2 rdx, 3 rbx, 4 rsp, 5 rbp, 6 rsi, 7 rdi.
      The ones added by 64-bit mode (r8 to r15, xmm8 to xmm15) are not used and not modelled; nor are the flags, the upper halves of
      the xmm registers, and the rounding mode.
    - A call of a compiled C function [double f(double)] is one step: it faults unless the stack is aligned as the
      ABI requires; it may leave anything in the registers the ABI lets it change and in the stack
      below its return address; it returns its result in xmm0. *)
From Coq Require Import List ZArith Bool.
Import ListNotations.
Open Scope Z_scope.

Definition w64 (z : Z) : Z := z mod 2 ^ 64.
(** A two's complement number of [n] bits. *)
Definition signed (n : Z) (z : Z) : Z := if z <? 2 ^ (n - 1) then z else z - 2 ^ n.

Definition rax := 0%nat. Definition rcx := 1%nat. Definition rdx := 2%nat. Definition rbx := 3%nat.
Definition rsp := 4%nat. Definition rbp := 5%nat. Definition rsi := 6%nat. Definition rdi := 7%nat.

Inductive sse_op := ADDSD | SUBSD | MULSD | DIVSD.
Inductive insn :=
| PUSH (r : nat) | POP (r : nat)
| MOV_reg_reg (dst src : nat)
| MOV_reg_imm (dst : nat) (imm : Z)
| MOV_mem_reg (base : nat) (disp : Z) (src : nat)
| MOVSD_load (dst : nat) (base : nat) (disp : Z)
| MOVSD_store (base : nat) (disp : Z) (src : nat)
| SSE (op : sse_op) (dst : nat) (base : nat) (disp : Z)
| CALL_mem (base : nat) (disp : Z)
| RET.

(** Little-endian number of the [n] bytes from [k] on. *)
Fixpoint little (n : nat) (b : Z -> Z) (k : Z) : Z :=
  match n with O => 0 | S n' => b k mod 256 + 256 * little n' b (k + 1) end.

(** The instruction whose bytes are [b 0], [b 1], ..., and its length. *)
Definition decode (b : Z -> Z) : option (insn * Z) :=
  let b0 := b 0 in
  let md k := b k / 64 in
  let reg k := Z.to_nat ((b k / 8) mod 8) in
  let rm k := Z.to_nat (b k mod 8) in
  (* a memory operand [register + disp32] with the ModRM byte at [k] *)
  let mem32 k := if (md k =? 2) && negb (b k mod 8 =? 4) then Some (rm k, signed 32 (little 4 b (k + 1))) else None in
  if (0x50 <=? b0) && (b0 <? 0x58) then Some (PUSH (Z.to_nat (b0 - 0x50)), 1)
  else if (0x58 <=? b0) && (b0 <? 0x60) then Some (POP (Z.to_nat (b0 - 0x58)), 1)
  else if b0 =? 0xc3 then Some (RET, 1)
  else if b0 =? 0x48 (* REX.W *) then
    if b 1 =? 0x89 then
      if md 2 =? 3 then Some (MOV_reg_reg (rm 2) (reg 2), 3)
      else match mem32 2 with Some (base, disp) => Some (MOV_mem_reg base disp (reg 2), 7) | None => None end
    else if (0xb8 <=? b 1) && (b 1 <? 0xc0) then Some (MOV_reg_imm (Z.to_nat (b 1 - 0xb8)) (little 8 b 2), 10)
    else None
  else if (b0 =? 0xf2) && (b 1 =? 0x0f) then
    match mem32 3 with
    | None => None
    | Some (base, disp) =>
        if b 2 =? 0x10 then Some (MOVSD_load (reg 3) base disp, 8)
        else if b 2 =? 0x11 then Some (MOVSD_store base disp (reg 3), 8)
        else if b 2 =? 0x58 then Some (SSE ADDSD (reg 3) base disp, 8)
        else if b 2 =? 0x59 then Some (SSE MULSD (reg 3) base disp, 8)
        else if b 2 =? 0x5c then Some (SSE SUBSD (reg 3) base disp, 8)
        else if b 2 =? 0x5e then Some (SSE DIVSD (reg 3) base disp, 8)
        else None
    end
  else if b0 =? 0xff then
    if Nat.eqb (reg 1) 2 && (md 1 =? 1) && negb (b 1 mod 8 =? 4) then Some (CALL_mem (rm 1) (signed 8 (b 2 mod 256)), 3) else None
  else None.

(** The process the code runs in. *)
Record machine := Machine {
  readable : Z -> bool; writable : Z -> bool; executable : Z -> bool;
  sse : sse_op -> Z -> Z -> Z;                 (* the arithmetic unit, on the 64 bits of a double *)
  external : Z -> option (Z -> Z);             (* the compiled functions double(double), by address *)
  stack_lo : Z;                                (* the lowest address of the stack *)
  left_gpr : nat -> nat -> Z;                  (* what the n-th call leaves in the registers it may change *)
  left_xmm : nat -> nat -> Z;
  left_mem : nat -> Z -> Z                     (* and in the stack below it *)
}.
Record state := State { rip : Z; gpr : nat -> Z; xmm : nat -> Z; mem : Z -> Z; calls : nat }.

Definition set {X} (f : nat -> X) (r : nat) (v : X) : nat -> X := fun q => if Nat.eqb q r then v else f q.
Definition eight (p : Z -> bool) (a : Z) : bool := forallb (fun k => p (a + Z.of_nat k)) (seq 0 8).
Definition load64 (m : Z -> Z) (a : Z) : Z := little 8 m a.
Definition store64 (m : Z -> Z) (a v : Z) : Z -> Z :=
  fun b => if (a <=? b) && (b <? a + 8) then (v / 2 ^ (8 * (b - a))) mod 256 else m b.
(** The registers a function need not preserve. *)
Definition caller_saved (r : nat) : bool := negb (Nat.eqb r rbx || Nat.eqb r rsp || Nat.eqb r rbp).

Section Execution.
Context (M : machine).

Definition read (s : state) (a : Z) : option Z := if eight (readable M) a then Some (load64 (mem s) a) else None.
Definition write (s : state) (a v : Z) : option (Z -> Z) := if eight (writable M) a then Some (store64 (mem s) a v) else None.

(** One instruction; [next] is the address of the one after it. *)
Definition exec (s : state) (i : insn) (next : Z) : option state :=
  let g := gpr s in
  let address base disp := w64 (g base + disp) in
  match i with
  | PUSH r =>
      let a := w64 (g rsp - 8) in
      match write s a (g r) with Some m => Some (State next (set g rsp a) (xmm s) m (calls s)) | None => None end
  | POP r =>
      match read s (g rsp) with
      | Some v => Some (State next (set (set g rsp (w64 (g rsp + 8))) r v) (xmm s) (mem s) (calls s))
      | None => None
      end
  | MOV_reg_reg d r => Some (State next (set g d (g r)) (xmm s) (mem s) (calls s))
  | MOV_reg_imm d v => Some (State next (set g d v) (xmm s) (mem s) (calls s))
  | MOV_mem_reg b d r =>
      match write s (address b d) (g r) with Some m => Some (State next g (xmm s) m (calls s)) | None => None end
  | MOVSD_load x b d =>
      match read s (address b d) with Some v => Some (State next g (set (xmm s) x v) (mem s) (calls s)) | None => None end
  | MOVSD_store b d x =>
      match write s (address b d) (xmm s x) with Some m => Some (State next g (xmm s) m (calls s)) | None => None end
  | SSE o x b d =>
      match read s (address b d) with
      | Some v => Some (State next g (set (xmm s) x (sse M o (xmm s x) v)) (mem s) (calls s))
      | None => None
      end
  | CALL_mem b d =>
      match read s (address b d) with
      | None => None
      | Some target =>
          match external M target, write s (w64 (g rsp - 8)) next with
          | Some f, Some m =>
              if g rsp mod 16 =? 0 then
                Some (State next
                        (fun r => if caller_saved r then left_gpr M (calls s) r else g r)
                        (set (left_xmm M (calls s)) 0%nat (f (xmm s 0%nat)))
                        (fun a => if (stack_lo M <=? a) && (a <? g rsp) then left_mem M (calls s) a else m a)
                        (S (calls s)))
              else None
          | _, _ => None
          end
      end
  | RET =>
      match read s (g rsp) with
      | Some a => Some (State a (set g rsp (w64 (g rsp + 8))) (xmm s) (mem s) (calls s))
      | None => None
      end
  end.

Definition step (s : state) : option state :=
  match decode (fun k => mem s (rip s + k)) with
  | Some (i, n) =>
      if forallb (fun k => executable M (rip s + Z.of_nat k)) (seq 0 (Z.to_nat n)) then exec s i (rip s + n) else None
  | None => None
  end.
(** [n] instructions. *)
Fixpoint steps (n : nat) (s : state) : option state :=
  match n with O => Some s | S n' => match step s with Some s' => steps n' s' | None => None end end.
End Execution.
