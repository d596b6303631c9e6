(** Model of the x64 just-in-time compiler of fncas
    ([/repo/fncas/x64_native_jit/x64_native_jit.h]; [/repo/fncas/fncas/jit.h] 775-1020).

    Modelling decisions (SIMPL = simplification):
    - generated code is the list of its bytes; what the bytes do is X64_Spec's, a separate specification;
    - the nodes are those of Fncas_Model; [bits] is the reinterpretation of a double as 64 bits;
    - SIMPL: [node_index_t] and [size_t] are [nat], converted to [Z] where offsets are computed; the product
      by eight does not overflow 64 bits ([offset < 2 ^ 59]); [~i] on the stack is [Leave i];
    - [X64_JIT_ASSERT] is never a check: without NDEBUG it is empty, with NDEBUG [assert] is
      (x64_native_jit.h 45-50);
    - not modelled: mmap and mprotect (that the code is mapped readable and executable is a hypothesis), and the
      FNCAS_DEBUG_NATIVE_JIT printing. *)
From Coq Require Import List ZArith Bool.
Import ListNotations.
From Verif Require Import Fncas_Model.
Open Scope Z_scope.

(** *** x64_native_jit.h, namespace opcodes *)
(** The loops [push_back(o & 0xff); o >>= 8]. *)
Fixpoint le_bytes (n : nat) (o : Z) : list Z :=
  match n with O => [] | S n' => o mod 256 :: le_bytes n' (o / 256) end.
(** 108-126. *)
Definition push_rbx : list Z := [0x53].
Definition push_rdi : list Z := [0x57].
Definition push_rdx : list Z := [0x52].
(** 128-133. *)
Definition mov_rsi_rbx : list Z := [0x48; 0x89; 0xf3].
(** 135-158. *)
Definition pop_rbx : list Z := [0x5b].
Definition pop_rdi : list Z := [0x5f].
Definition pop_rdx : list Z := [0x5a].
Definition ret : list Z := [0xc3].
(** 173-175 and its copies: sixteen doubles are added to every offset. *)
Definition byte_offset (offset : Z) : Z := (offset + 16) * 8.
(** 160-183, 195-198, internal_load_immediate_to_memory_by_someregister_offset; [v] is the 64 bits of the double. *)
Definition internal_load_immediate (reg offset v : Z) : list Z :=
  [0x48; 0xb8] ++ le_bytes 8 v ++ [0x48; 0x89; reg] ++ le_bytes 4 (byte_offset offset).
Definition load_immediate_to_memory_by_rbx_offset := internal_load_immediate 0x83.
(** 200-215, 217-230. *)
Definition internal_load (reg offset : Z) : list Z := [0xf2; 0x0f; 0x10; reg] ++ le_bytes 4 (byte_offset offset).
Definition load_from_memory_by_rdi_offset_to_xmm0 := internal_load 0x87.
Definition load_from_memory_by_rbx_offset_to_xmm0 := internal_load 0x83.
(** 232-247, 289-307. *)
Definition internal_op (code reg offset : Z) : list Z := [0xf2; 0x0f; code; reg] ++ le_bytes 4 (byte_offset offset).
Definition add_from_memory_by_rbx_offset_to_xmm0 := internal_op 0x58 0x83.
Definition sub_from_memory_by_rbx_offset_to_xmm0 := internal_op 0x5c 0x83.
Definition mul_from_memory_by_rbx_offset_to_xmm0 := internal_op 0x59 0x83.
Definition div_from_memory_by_rbx_offset_to_xmm0 := internal_op 0x5e 0x83.
(** 309-324, 331-334. *)
Definition internal_store (reg offset : Z) : list Z := [0xf2; 0x0f; 0x11; reg] ++ le_bytes 4 (byte_offset offset).
Definition store_xmm0_to_memory_by_rbx_offset := internal_store 0x83.
(** 336-342, call_function_from_rdx_pointers_array_by_index: the last byte is truncated to eight bits. *)
Definition call_function_from_rdx_pointers_array_by_index (index : Z) : list Z := [0xff; 0x52; ((index + 1) * 0x08) mod 256].

(** fncas_functions.dsl.h: the numbers of the functions in the enum (base.h 67-72), and in the array of
    pointers to them (jit.h 915-925), which is filled in the same order. *)
Definition all_functions : list mfun := [sqr; sqrt; exp; log; sin; cos; tan; asin; acos; atan; unit_step; ramp].
Definition function_index (f : mfun) : Z :=
  match f with
  | sqr => 0 | sqrt => 1 | exp => 2 | log => 3 | sin => 4 | cos => 5 | tan => 6
  | asin => 7 | acos => 8 | atan => 9 | unit_step => 10 | ramp => 11
  end.

Section Generator.
Context (A : arith) (bits : num A -> Z).
Notation T := (num A).

(** jit.h 783-788, JITCodeGenerator: the code so far, the nodes already seen, and the greatest of them. *)
Record generator := Generator { code : list Z; seen : nat -> bool; max_dim : nat }.
Definition emit (g : generator) (b : list Z) : generator := Generator (code g ++ b) (seen g) (max_dim g).
(** jit.h 790-799, the constructor. *)
Definition begin_code : generator := Generator (push_rbx ++ mov_rsi_rbx) (fun _ => false) 0.
(** jit.h 801-810, the destructor. *)
Definition end_code (g : generator) : list Z := code g ++ pop_rbx ++ ret.

(** jit.h 866-875. *)
Definition op_code (o : mop) (offset : Z) : list Z :=
  match o with
  | add => add_from_memory_by_rbx_offset_to_xmm0 offset
  | subtract => sub_from_memory_by_rbx_offset_to_xmm0 offset
  | multiply => mul_from_memory_by_rbx_offset_to_xmm0 offset
  | divide => div_from_memory_by_rbx_offset_to_xmm0 offset
  end.

(** jit.h 818-907, one turn of the loop of jit_compile_node. [Undefined]: a node that does not exist. *)
Definition compile_step (ns : list (node A)) (dim : nat) (fr : frame) (stack : list frame) (g : generator)
  : outcome (list frame * generator) :=
  let slot i := Z.of_nat (i + dim) in
  match fr with
  | Enter i =>
      let g := Generator (code g) (seen g) (Nat.max (max_dim g) i) in
      if seen g i then Ok (stack, g)
      else
        let g := Generator (code g) (fun j => if Nat.eqb j i then true else seen g j) (max_dim g) in
        match nth_error ns i with
        | Some (NVar v) =>
            Ok (stack, emit g (load_from_memory_by_rdi_offset_to_xmm0 (Z.of_nat v) ++ store_xmm0_to_memory_by_rbx_offset (slot i)))
        | Some (NVal c) => Ok (stack, emit g (load_immediate_to_memory_by_rbx_offset (slot i) (bits c)))
        | Some (NOp _ l r) => Ok (Enter r :: Enter l :: Leave i :: stack, g)
        | Some (NFun _ a) => Ok (Enter a :: Leave i :: stack, g)
        | None => Undefined
        end
  | Leave i =>
      match nth_error ns i with
      | Some (NOp o l r) =>
          Ok (stack, emit g (load_from_memory_by_rbx_offset_to_xmm0 (slot l) ++ op_code o (slot r) ++
                             store_xmm0_to_memory_by_rbx_offset (slot i)))
      | Some (NFun f a) =>
          Ok (stack, emit g (load_from_memory_by_rbx_offset_to_xmm0 (slot a) ++ push_rdi ++ push_rdx ++
                             call_function_from_rdx_pointers_array_by_index (function_index f) ++ pop_rdx ++ pop_rdi ++
                             store_xmm0_to_memory_by_rbx_offset (slot i)))
      | _ => Undefined
      end
  end.
(** jit.h 812-908, jit_compile_node; [None] when it takes more than [fuel] turns. *)
Fixpoint compile_loop (fuel : nat) (ns : list (node A)) (dim : nat) (stack : list frame) (g : generator) : option (outcome generator) :=
  match stack with
  | [] => Some (Ok g)
  | fr :: stack' =>
      match fuel with
      | O => None
      | S fuel' =>
          match compile_step ns dim fr stack' g with
          | Ok (stack'', g') => compile_loop fuel' ns dim stack'' g'
          | Throws => Some Throws
          | Undefined => Some Undefined
          end
      end
  end.
Definition jit_compile_node (fuel : nat) (ns : list (node A)) (dim : nat) (index : nat) (g : generator) : option (outcome generator) :=
  compile_loop fuel ns dim [Enter index] g.

(** What is run: the bytes, and the size of the vector of doubles the code works in. *)
Record compiled := Compiled { bytes : list Z; heap_size : nat }.
(** jit.h 931-955, f_compiled_x64_native_jit::generate_code_for_f. *)
Definition compile_f (fuel : nat) (m : memory A) (f : nat) : option (outcome compiled) :=
  match jit_compile_node fuel (nodes m) 0 f begin_code with
  | Some (Ok g) => Some (Ok (Compiled (end_code (emit g (load_from_memory_by_rbx_offset_to_xmm0 (Z.of_nat f)))) (max_dim g + 1)))
  | Some Throws => Some Throws
  | Some Undefined => Some Undefined
  | None => None
  end.
(** jit.h 974-985 in the loop of 993-995: generate_code_for_g for the components from number [k] on. *)
Fixpoint compile_components (fuel : nat) (ns : list (node A)) (dim k : nat) (gs : list nat) (g : generator) : option (outcome generator) :=
  match gs with
  | [] => Some (Ok g)
  | v :: gs' =>
      match jit_compile_node fuel ns dim v g with
      | Some (Ok g) =>
          compile_components fuel ns dim (S k) gs'
            (emit g (load_from_memory_by_rbx_offset_to_xmm0 (Z.of_nat (v + dim)) ++ store_xmm0_to_memory_by_rbx_offset (Z.of_nat k)))
      | other => other
      end
  end.
(** jit.h 987-1007, g_compiled_x64_native_jit: [gs] are the nodes of the gradient, one per dimension. *)
Definition compile_g (fuel : nat) (m : memory A) (gs : list nat) : option (outcome compiled) :=
  let dim := length gs in
  match compile_components fuel (nodes m) dim 0 gs begin_code with
  | Some (Ok g) => Some (Ok (Compiled (end_code g) (dim + max_dim g + 1)))
  | Some Throws => Some Throws
  | Some Undefined => Some Undefined
  | None => None
  end.
End Generator.

(** *** Calling it *)
(** x64_native_jit.h 93-97, CallableVectorUInt8::operator(): the pointers passed as the arguments, for the vectors at
    addresses [x], [o] and [f]; a double and a pointer take eight bytes. *)
Definition arguments (x o f : Z) : Z * Z * Z := (x - 16 * 8, o - 16 * 8, f - 1 * 8).
