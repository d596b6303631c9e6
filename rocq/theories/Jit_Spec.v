(** What a user of the compiled function relies on: called as a C function of signature
    [double] of a point, of a vector to work in and of an array of pointers to functions, it is one. *)
From Coq Require Import List ZArith Bool.
Import ListNotations.
From Verif Require Import Fncas_Model X64_Spec Jit_Model.
Open Scope Z_scope.

(** The doubles of the code as 64-bit words: [value w] is the number whose bits are [w]; the unit of the processor computes on the bits what
    the arithmetic [A] computes on the numbers. *)
Record words (A : arith) (M : machine) := Words {
  bits : num A -> Z;
  value : Z -> num A;
  function_words : mfun -> Z -> Z;                   (* the compiled [fncas::sqr], [sqrt] and so on *)
  bits_range : forall c, 0 <= bits c < 2 ^ 64;
  value_bits : forall c, value (bits c) = c;
  value_add : forall u v, value (sse M ADDSD u v) = a_add A (value u) (value v);
  value_sub : forall u v, value (sse M SUBSD u v) = a_sub A (value u) (value v);
  value_mul : forall u v, value (sse M MULSD u v) = a_mul A (value u) (value v);
  value_div : forall u v, value (sse M DIVSD u v) = a_div A (value u) (value v);
  sse_range : forall o u v, 0 <= sse M o u v < 2 ^ 64;
  value_function : forall f u, value (function_words f u) = apply_function A f (value u);
  function_range : forall f u, 0 <= function_words f u < 2 ^ 64
}.
Arguments bits {A M}. Arguments value {A M}. Arguments function_words {A M}.

(** Addresses: of the code, of [x[0]], of [actual_heap[0]], of the array of functions, of the top of the stack, where the
    return address is. *)
Record places := Places { p_code : Z; p_x : Z; p_heap : Z; p_functions : Z; p_stack : Z }.
(** [a] is one of the [n] bytes from [b] on. *)
Definition inside (b n a : Z) : Prop := b <= a < b + n.

Section Call.
Context {A : arith} {M : machine} (W : words A M).

(** The state right after the caller's [call] of the code, by the calling convention, with vectors that do not overlap. *)
Record called_with (prog : compiled) (x : list (num A)) (P : places) (s : state) : Prop := {
  cw_rip : rip s = p_code P;
  cw_arguments : (gpr s rdi, gpr s rsi, gpr s rdx) =
    (let '(a, b, c) := arguments (p_x P) (p_heap P) (p_functions P) in (w64 a, w64 b, w64 c));
  cw_rsp : gpr s rsp = p_stack P;
  cw_aligned : p_stack P mod 16 = 8;
  cw_registers : forall r, 0 <= gpr s r < 2 ^ 64;
  (* the code *)
  cw_code : forall k b, nth_error (bytes prog) k = Some b -> mem s (p_code P + Z.of_nat k) = b /\ executable M (p_code P + Z.of_nat k) = true;
  (* the point *)
  cw_x : forall v y, nth_error x v = Some y ->
    value W (load64 (mem s) (p_x P + 8 * Z.of_nat v)) = y /\ eight (readable M) (p_x P + 8 * Z.of_nat v) = true;
  (* the vector it works in, with anything there *)
  cw_heap : forall a, inside (p_heap P) (8 * Z.of_nat (heap_size prog)) a -> readable M a = true /\ writable M a = true;
  (* the functions *)
  cw_functions : forall f,
    external M (load64 (mem s) (p_functions P + 8 * function_index f)) = Some (function_words W f) /\
    eight (readable M) (p_functions P + 8 * function_index f) = true;
  (* the stack: at least 32 bytes are left *)
  cw_stack_size : stack_lo M + 32 <= p_stack P;
  cw_stack : forall a, stack_lo M <= a < p_stack P + 8 -> readable M a = true /\ writable M a = true;
  (* all of them are in the address space, and do not overlap *)
  cw_ranges : 0 <= stack_lo M /\ p_stack P + 8 < 2 ^ 64 /\
    0 <= p_heap P /\ p_heap P + 8 * Z.of_nat (heap_size prog) <= 2 ^ 64 /\
    0 <= p_x P /\ p_x P + 8 * Z.of_nat (length x) <= 2 ^ 64 /\
    0 <= p_functions P /\ p_functions P + 8 * 12 <= 2 ^ 64 /\
    0 <= p_code P /\ p_code P + Z.of_nat (length (bytes prog)) <= 2 ^ 64;
  cw_apart : forall a,
    let heap := inside (p_heap P) (8 * Z.of_nat (heap_size prog)) a in
    let stack := stack_lo M <= a < p_stack P + 8 in
    let others := inside (p_code P) (Z.of_nat (length (bytes prog))) a \/ inside (p_x P) (8 * Z.of_nat (length x)) a \/
                  inside (p_functions P) (8 * 12) a in
    ~ (heap /\ stack) /\ ~ (heap /\ others) /\ ~ (stack /\ others)
}.

(** The code has returned to its caller: the registers the caller may count on are as they were, and nothing but the heap
    vector and the stack below the caller's frame has changed. *)
Record returned (prog : compiled) (P : places) (s s' : state) : Prop := {
  re_rip : rip s' = load64 (mem s) (p_stack P);
  re_rsp : gpr s' rsp = p_stack P + 8;
  re_rbx : gpr s' rbx = gpr s rbx;
  re_rbp : gpr s' rbp = gpr s rbp;
  re_memory : forall a, ~ inside (p_heap P) (8 * Z.of_nat (heap_size prog)) a -> ~ stack_lo M <= a < p_stack P -> mem s' a = mem s a
}.
End Call.
