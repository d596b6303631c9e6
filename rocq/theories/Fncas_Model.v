(** Model of fncas: recording functions, evaluating them and differentiating them
    ([/repo/fncas/fncas/base.h], [node.h], [differentiate.h]).

    Modelling decisions (SIMPL = simplification):
    - the arithmetic is a parameter: the theorems on recording and evaluation hold for any, IEEE
      doubles included; those on derivatives are for the real numbers (rounding errors are not modelled);
    - the singleton with all the nodes is a value passed around; one thread, one [X] alive
      (the code throws if there are two, node.h 421-423);
    - SIMPL: indexes are [nat]; [~i] on the stack is [Leave i];
    - SIMPL: a vector read with growing_vector_access (base.h 57-63) is a function
      which is [None]/[false] where nothing was stored;
    - where C++ leaves the order of the evaluation of two operands open, it is left to right;
    - reading outside of a vector, or of a value not stored, is the outcome [Undefined]. *)
From Coq Require Import List Arith Bool.
Import ListNotations.

(** base.h 66, MathOperation; base.h 67-72 and fncas_functions.dsl.h, MathFunction. *)
Inductive mop := add | subtract | multiply | divide.
Inductive mfun := sqr | sqrt | exp | log | sin | cos | tan | asin | acos | atan | unit_step | ramp.

(** What is used of [double_t]: operators, the functions of <cmath>, comparisons, the literals. *)
Record arith := Arith {
  num : Type;
  a_add : num -> num -> num; a_sub : num -> num -> num; a_mul : num -> num -> num; a_div : num -> num -> num;
  a_opp : num -> num;
  a_math : mfun -> num -> num;       (* of those in <cmath> *)
  a_eqb : num -> num -> bool;        (* == *)
  a_leb : num -> num -> bool;        (* <= *)
  a_ltb : num -> num -> bool;        (* < *)
  c0 : num; c1 : num; c2 : num; c4 : num; c_half : num; c_minus1 : num
}.

Section Fncas.
Context (A : arith).
Notation T := (num A).

(** node.h 97-107, apply_operation. *)
Definition apply_operation (o : mop) : T -> T -> T :=
  match o with add => a_add A | subtract => a_sub A | multiply => a_mul A | divide => a_div A end.
(** node.h 49-76: sqr, unit_step, ramp and apply_function. *)
Definition apply_function (f : mfun) (x : T) : T :=
  match f with
  | sqr => a_mul A x x
  | unit_step => if a_leb A (c0 A) x then c1 A else c0 A
  | ramp => if a_ltb A (c0 A) x then x else c0 A
  | _ => a_math A f x
  end.

(** node.h 148-180, node_impl. *)
Inductive node := NVar (v : nat) | NVal (c : T) | NOp (o : mop) (l r : nat) | NFun (f : mfun) (a : nat).

(** node.h 111-142, internals_impl: the nodes, and the map from values to their nodes (newest first). *)
Record memory := Memory { nodes : list node; allocated_values : list (T * nat) }.

(** What happened: a result with the new memory, an exception, or undefined behaviour. *)
Inductive outcome R := Ok (r : R) | Throws | Undefined.
Arguments Ok {R}. Arguments Throws {R}. Arguments Undefined {R}.

Fixpoint replace_nth {X} (l : list X) (i : nat) (x : X) : list X :=
  match l, i with
  | [], _ => []
  | _ :: l', O => x :: l'
  | y :: l', S i' => y :: replace_nth l' i' x
  end.

(** node.h 257-259 and the setters: a new node. *)
Definition new_node (m : memory) (n : node) : memory * nat :=
  (Memory (nodes m ++ [n]) (allocated_values m), length (nodes m)).
(** node.h 257-259, 287: a default-constructed [V].  [resize] zeroes the new node, which makes it
    the variable number zero (base.h 65: [variable] is zero). *)
Definition default_node (m : memory) : memory * nat := new_node m (NVar 0).
(** node.h 260-270, the look-up in allocated_values_map_. *)
Fixpoint find_value (c : T) (l : list (T * nat)) : option nat :=
  match l with
  | [] => None
  | (d, i) :: l' => if a_eqb A c d then Some i else find_value c l'
  end.
(** node.h 260-270 and 288-291, [V(double)]: type and value are set in the node found, too. *)
Definition value_node (m : memory) (c : T) : memory * nat :=
  match find_value c (allocated_values m) with
  | Some i => (Memory (replace_nth (nodes m) i (NVal c)) (allocated_values m), i)
  | None => (Memory (nodes m ++ [NVal c]) ((c, length (nodes m)) :: allocated_values m), length (nodes m))
  end.
(** node.h 512-529, the operators. *)
Definition op_node (m : memory) (o : mop) (l r : nat) : memory * nat := new_node m (NOp o l r).
(** node.h 537-583, the functions. *)
Definition fun_node (m : memory) (f : mfun) (a : nat) : memory * nat := new_node m (NFun f a).
(** node.h 587, unary minus: [0.0 - x]. *)
Definition neg_node (m : memory) (a : nat) : memory * nat :=
  let (m, z) := value_node m (c0 A) in op_node m subtract z a.

Fixpoint repeat_default (n : nat) (m : memory) : memory :=
  match n with O => m | S n' => repeat_default n' (fst (default_node m)) end.
(** node.h 416-436, X: [resize] makes [dim] default nodes, then each is replaced by a variable node (308-313). *)
Fixpoint variable_nodes (i dim : nat) (m : memory) : memory * list nat :=
  match dim with
  | O => (m, [])
  | S dim' =>
      let (m, k) := new_node m (NVar i) in
      let (m, ks) := variable_nodes (S i) dim' m in (m, k :: ks)
  end.
Definition new_x (dim : nat) : memory * list nat :=
  variable_nodes 0 dim (repeat_default dim (Memory [] [])).

(** *** Evaluation *)
Inductive frame := Enter (i : nat) | Leave (i : nat).
(** node.h 121-123: node_computed_ and node_value_. *)
Record cache := Cache { computed : nat -> bool; values : nat -> option T }.
Definition empty_cache : cache := Cache (fun _ => false) (fun _ => None).
Definition store (c : cache) (i : nat) (v : T) : cache :=
  Cache (fun j => if Nat.eqb j i then true else computed c j) (fun j => if Nat.eqb j i then Some v else values c j).

(** node.h 196-242, one turn of the loop of eval_node. *)
Definition eval_step (ns : list node) (x : list T) (fr : frame) (stack : list frame) (c : cache)
  : outcome (list frame * cache) :=
  match fr with
  | Enter i =>
      if computed c i then Ok (stack, c)
      else match nth_error ns i with
           | Some (NVar v) =>
               match nth_error x v with Some y => Ok (stack, store c i y) | None => Undefined end
           | Some (NVal y) => Ok (stack, store c i y)
           | Some (NOp _ l r) => Ok (Enter r :: Enter l :: Leave i :: stack, c)
           | Some (NFun _ a) => Ok (Enter a :: Leave i :: stack, c)
           | None => Undefined
           end
  | Leave i =>
      match nth_error ns i with
      | Some (NOp o l r) =>
          match values c l, values c r with
          | Some y, Some z => Ok (stack, store c i (apply_operation o y z))
          | _, _ => Undefined
          end
      | Some (NFun f a) =>
          match values c a with
          | Some y => Ok (stack, store c i (apply_function f y))
          | None => Undefined
          end
      | _ => Undefined
      end
  end.
(** The loop; [None] when it takes more than [fuel] turns. *)
Fixpoint eval_loop (fuel : nat) (ns : list node) (x : list T) (stack : list frame) (c : cache) : option (outcome cache) :=
  match stack with
  | [] => Some (Ok c)
  | fr :: stack' =>
      match fuel with
      | O => None
      | S fuel' =>
          match eval_step ns x fr stack' c with
          | Ok (stack'', c') => eval_loop fuel' ns x stack'' c'
          | Throws => Some Throws
          | Undefined => Some Undefined
          end
      end
  end.
(** node.h 185-245, eval_node, with [reuse_cache::reuse]: from the cache given, returning it with the value. *)
Definition eval_node (fuel : nat) (ns : list node) (i : nat) (x : list T) (c : cache) : option (outcome (T * cache)) :=
  match eval_loop fuel ns x [Enter i] c with
  | None => None
  | Some (Ok c') => Some (match values c' i with Some v => Ok (v, c') | None => Undefined end)
  | Some Throws => Some Throws
  | Some Undefined => Some Undefined
  end.
(** node.h 190-192, reuse_cache::invalidate clears [node_computed_] only. *)
Definition invalidate (c : cache) : cache := Cache (fun _ => false) (values c).
(** node.h 333-335, [V::operator()]. *)
Definition call (fuel : nat) (m : memory) (i : nat) (x : list T) (c : cache) : option (outcome (T * cache)) :=
  eval_node fuel (nodes m) i x (invalidate c).

(** *** Differentiation *)
(** node.h 296-297, is_value, equals_to. *)
Definition is_value (m : memory) (i : nat) : option T :=
  match nth_error (nodes m) i with Some (NVal c) => Some c | _ => None end.
Definition equals_to (m : memory) (i : nat) (c : T) : bool :=
  match is_value m i with Some v => a_eqb A v c | None => false end.

(** differentiate.h 69-81, d_add. *)
Definition d_add (m : memory) (da db : nat) : memory * nat :=
  match is_value m da, is_value m db with
  | Some u, Some v => value_node m (a_add A u v)
  | _, _ =>
      if equals_to m db (c0 A) then (m, da)
      else if equals_to m da (c0 A) then (m, db)
      else op_node m add da db
  end.
(** differentiate.h 83-95, d_sub. *)
Definition d_sub (m : memory) (da db : nat) : memory * nat :=
  match is_value m da, is_value m db with
  | Some u, Some v => value_node m (a_sub A u v)
  | _, _ =>
      if equals_to m db (c0 A) then (m, da)
      else if equals_to m da (c0 A) then neg_node m db
      else op_node m subtract da db
  end.
(** differentiate.h 97-109, simplified_mul. *)
Definition simplified_mul (m : memory) (x y : nat) : memory * nat :=
  if equals_to m x (c0 A) || equals_to m y (c0 A) then value_node m (c0 A)
  else match is_value m x, is_value m y with
       | Some u, Some v => value_node m (a_mul A u v)
       | _, _ =>
           if equals_to m y (c1 A) then (m, x)
           else if equals_to m x (c1 A) then (m, y)
           else op_node m multiply x y
       end.
(** differentiate.h 111-123, d_mul. *)
Definition d_mul (m : memory) (a b da db : nat) : memory * nat :=
  let lhs_zero := equals_to m a (c0 A) || equals_to m db (c0 A) in
  let rhs_zero := equals_to m b (c0 A) || equals_to m da (c0 A) in
  if lhs_zero && rhs_zero then value_node m (c0 A)
  else if lhs_zero then simplified_mul m b da
  else if rhs_zero then simplified_mul m a db
  else let (m, p) := simplified_mul m a db in
       let (m, q) := simplified_mul m b da in
       op_node m add p q.
(** differentiate.h 128-131. *)
Definition d_div (m : memory) (a b da db : nat) : memory * nat :=
  let (m, p) := simplified_mul m b da in
  let (m, q) := simplified_mul m a db in
  let (m, n) := op_node m subtract p q in
  let (m, d) := op_node m multiply b b in
  op_node m divide n d.
(** differentiate.h 125-133, d_op. *)
Definition d_op (m : memory) (o : mop) (a b da db : nat) : memory * nat :=
  match o with
  | add => d_add m da db
  | subtract => d_sub m da db
  | multiply => d_mul m a b da db
  | divide => d_div m a b da db
  end.

(** differentiate.h 172-187, [1 - x * x] under a square root, for asin and acos. *)
Definition sqrt_1_minus_sqr (m : memory) (x : nat) : memory * nat :=
  let (m, one) := value_node m (c1 A) in
  let (m, xx) := op_node m multiply x x in
  let (m, d) := op_node m subtract one xx in
  fun_node m sqrt d.
(** differentiate.h 135-204, d_f; [None]: it throws. *)
Definition d_f (m : memory) (f : mfun) (original x dx : nat) : option (memory * nat) :=
  match f with
  | sqr =>
      let (m, two) := value_node m (c2 A) in
      let (m, p) := simplified_mul m x dx in
      Some (simplified_mul m two p)
  | sqrt =>
      Some (match is_value m original with
            | Some v => let (m, k) := value_node m (a_div A (c_half A) v) in simplified_mul m k dx
            | None => let (m, s) := op_node m add original original in op_node m divide dx s
            end)
  | exp => Some (simplified_mul m original dx)
  | log =>
      Some (match is_value m x with
            | Some v =>
                let (m, one) := value_node m (c1 A) in
                let (m, k) := value_node m v in
                let (m, q) := op_node m divide one k in
                simplified_mul m q dx
            | None => op_node m divide dx x
            end)
  | sin => let (m, c) := fun_node m cos x in Some (simplified_mul m dx c)
  | cos =>
      let (m, k) := value_node m (c_minus1 A) in
      let (m, s) := fun_node m sin x in
      let (m, p) := simplified_mul m dx s in
      Some (simplified_mul m k p)
  | tan =>
      let (m, four) := value_node m (c4 A) in
      let (m, ca) := fun_node m cos x in
      let (m, cb) := fun_node m cos x in
      let (m, cc) := op_node m multiply ca cb in
      let (m, p) := simplified_mul m dx cc in
      let (m, a) := simplified_mul m four p in
      let (m, xx) := op_node m add x x in
      let (m, cd) := fun_node m cos xx in
      let (m, one) := value_node m (c1 A) in
      let (m, b) := op_node m add cd one in
      Some (match is_value m b with
            | Some v => let (m, k) := value_node m (a_div A (c1 A) v) in simplified_mul m k a
            | None => let (m, bb) := op_node m multiply b b in op_node m divide a bb
            end)
  | asin =>
      Some (match is_value m x with
            | Some _ =>
                let (m, one) := value_node m (c1 A) in
                let (m, s) := sqrt_1_minus_sqr m x in
                let (m, q) := op_node m divide one s in
                simplified_mul m q dx
            | None => let (m, s) := sqrt_1_minus_sqr m x in op_node m divide dx s
            end)
  | acos =>
      Some (match is_value m x with
            | Some _ =>
                let (m, k) := value_node m (c_minus1 A) in
                let (m, s) := sqrt_1_minus_sqr m x in
                let (m, q) := op_node m divide k s in
                simplified_mul m q dx
            | None =>
                let (m, k) := value_node m (c_minus1 A) in
                let (m, n) := op_node m multiply k dx in
                let (m, s) := sqrt_1_minus_sqr m x in
                op_node m divide n s
            end)
  | atan =>
      let denominator m :=
        let (m, xx) := op_node m multiply x x in
        let (m, one) := value_node m (c1 A) in
        op_node m add xx one in
      Some (match is_value m x with
            | Some _ =>
                let (m, one) := value_node m (c1 A) in
                let (m, d) := denominator m in
                let (m, q) := op_node m divide one d in
                simplified_mul m q dx
            | None => let (m, d) := denominator m in op_node m divide dx d
            end)
  | unit_step => None
  | ramp => let (m, u) := fun_node m unit_step x in Some (op_node m multiply u dx)
  end.

(** internals_impl::df_ for one variable: the derivative of each node, if known. *)
Notation derivatives := (nat -> option nat).
Definition set_derivative (df : derivatives) (i d : nat) : derivatives := fun j => if Nat.eqb j i then Some d else df j.

(** differentiate.h 221-264, one turn of the loop of differentiate_node. *)
Definition diff_step (zero one var : nat) (fr : frame) (stack : list frame) (m : memory) (df : derivatives)
  : outcome (list frame * memory * derivatives) :=
  match fr with
  | Enter i =>
      match nth_error (nodes m) i with
      | Some (NVar v) => Ok (stack, m, set_derivative df i (if Nat.eqb v var then one else zero))
      | Some (NVal _) => Ok (stack, m, set_derivative df i zero)
      | Some (NOp _ l r) => Ok (Enter r :: Enter l :: Leave i :: stack, m, df)
      | Some (NFun _ a) => Ok (Enter a :: Leave i :: stack, m, df)
      | None => Undefined
      end
  | Leave i =>
      match nth_error (nodes m) i with
      | Some (NOp o a b) =>
          match df a, df b with
          | Some da, Some db => let (m', d) := d_op m o a b da db in Ok (stack, m', set_derivative df i d)
          | _, _ => Undefined
          end
      | Some (NFun f x) =>
          match df x with
          | Some dx =>
              match d_f m f i x dx with
              | Some (m', d) => Ok (stack, m', set_derivative df i d)
              | None => Throws
              end
          | None => Undefined
          end
      | _ => Undefined
      end
  end.
Fixpoint diff_loop (fuel : nat) (zero one var : nat) (stack : list frame) (m : memory) (df : derivatives)
  : option (outcome (memory * derivatives)) :=
  match stack with
  | [] => Some (Ok (m, df))
  | fr :: stack' =>
      match fuel with
      | O => None
      | S fuel' =>
          match diff_step zero one var fr stack' m df with
          | Ok (stack'', m', df') => diff_loop fuel' zero one var stack'' m' df'
          | Throws => Some Throws
          | Undefined => Some Undefined
          end
      end
  end.
(** differentiate.h 208-269, differentiate_node. *)
Definition differentiate_node (fuel : nat) (m : memory) (df : derivatives) (index var : nat)
  : option (outcome (memory * derivatives * nat)) :=
  match df index with
  | Some d => Some (Ok (m, df, d))
  | None =>
      let (m, zero) := value_node m (c0 A) in
      let (m, one) := value_node m (c1 A) in
      match diff_loop fuel zero one var [Enter index] m df with
      | None => None
      | Some (Ok (m', df')) =>
          Some (match df' index with Some d => Ok (m', df', d) | None => Undefined end)
      | Some Throws => Some Throws
      | Some Undefined => Some Undefined
      end
  end.

(** differentiate.h 305-313, the constructor of the gradient: one derivative per variable. *)
Fixpoint gradient_from (fuel : nat) (m : memory) (df : nat -> derivatives) (f i n : nat)
  : option (outcome (memory * (nat -> derivatives) * list nat)) :=
  match n with
  | O => Some (Ok (m, df, []))
  | S n' =>
      match differentiate_node fuel m (df i) f i with
      | Some (Ok (m, dfi, d)) =>
          match gradient_from fuel m (fun j => if Nat.eqb j i then dfi else df j) f (S i) n' with
          | Some (Ok (m, df, ds)) => Some (Ok (m, df, d :: ds))
          | other => other
          end
      | Some Throws => Some Throws
      | Some Undefined => Some Undefined
      | None => None
      end
  end.
Definition gradient (fuel : nat) (m : memory) (df : nat -> derivatives) (dim f : nat)
  : option (outcome (memory * (nat -> derivatives) * list nat)) :=
  gradient_from fuel (repeat_default dim m) df f 0 dim.

(** differentiate.h 321-328, evaluation of the gradient: the cache is invalidated before the first component only. *)
Fixpoint eval_all (fuel : nat) (ns : list node) (g : list nat) (x : list T) (c : cache) : option (outcome (list T * cache)) :=
  match g with
  | [] => Some (Ok ([], c))
  | d :: g' =>
      match eval_node fuel ns d x c with
      | Some (Ok (v, c)) =>
          match eval_all fuel ns g' x c with
          | Some (Ok (vs, c)) => Some (Ok (v :: vs, c))
          | other => other
          end
      | Some Throws => Some Throws
      | Some Undefined => Some Undefined
      | None => None
      end
  end.
Definition call_gradient (fuel : nat) (m : memory) (g : list nat) (x : list T) (c : cache) : option (outcome (list T * cache)) :=
  eval_all fuel (nodes m) g x (match g with [] => c | _ => invalidate c end).
End Fncas.

Arguments NVar {A}. Arguments NVal {A}. Arguments NOp {A}. Arguments NFun {A}.
Arguments Memory {A}. Arguments nodes {A}. Arguments allocated_values {A}.
Arguments Ok {R}. Arguments Throws {R}. Arguments Undefined {R}.
