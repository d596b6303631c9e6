(** Model of [bricks/sync/owned_borrowed.h]: [UniqueInstance], [WeakBorrowed], [Owned], [Borrowed],
    [BorrowedWithCallback] and [BorrowedOfGuaranteedLifetime].

    A transition system over any number of owned instances and handles.  One step is one section
    locked by an instance's mutex, or one access made outside of it.  A handle is used by one thread at
    a time, as the code requires; different handles by different threads, in any order.
    Not modelled: the object of type T itself, ExclusiveUse, and move assignment of [Owned]. *)
From stdpp Require Import list.

Section Owned.
  Context {C : Type}.   (* the destruction callbacks *)

  (** owned_borrowed.h 148, std::map<size_t, std::function<void()>>: sorted by key. *)
  Notation registry := (list (nat * C)).
  (** std::map::operator[] assignment, 113 and 118. *)
  Fixpoint put (k : nat) (c : C) (l : registry) : registry :=
    match l with
    | [] => [(k, c)]
    | (k', c') :: r => if decide (k < k') then (k, c) :: l else if decide (k = k') then (k, c) :: r else (k', c') :: put k c r
    end.
  (** std::map::find and erase, 126-129. *)
  Definition del (k : nat) (l : registry) : registry := filter (λ e, e.1 ≠ k) l.

  (** Where ~UniqueInstance is, 90-114. *)
  Inductive destructor :=
  | Alive
  | Flagged                       (* 92 *)
  | Calling (rest : registry)     (* 95-101 done, the callbacks of [rest] are still to be called, 104-106 *)
  | Sleeping | Woken              (* in condition_variable_.wait, 111 *)
  | Destroyed.

  (** 83-150. *)
  Record inst := Inst { destructing : bool; borrowers : registry; total : nat; dtor : destructor;
                        called : registry (* ghost: the callbacks called so far *) }.
  (** 83, 87. *)
  Definition new_inst : inst := Inst false [] 0 Alive [].

  (** WeakBorrowed, 167-301: p_actual_instance_ and key_; [container] is movable_instance_ of an [Owned], 312, 335.
      A handle which is not constructed, destroyed, moved from or set to null is [null].  [releasing] is a handle inside
      UnRegisterBorrower between the locked section and the notification (121-134). *)
  Record handle := Handle { container : option nat; p_actual_instance : option nat; key : nat; releasing : option (nat * bool) }.
  Definition null : handle := Handle None None 0 None.

  Record state := State { handles : nat → handle; insts : nat → inst; next : nat }.
  Definition initial : state := State (λ _, null) (λ _, new_inst) 0.

  Definition upd {A} (f : nat → A) (i : nat) (x : A) : nat → A := λ j, if decide (j = i) then x else f j.
  Definition is_null (x : handle) : bool := bool_decide (container x = None ∧ p_actual_instance x = None ∧ releasing x = None).
  Definition with_borrowers (x : inst) (l : registry) (n : nat) : inst := Inst (destructing x) l n (dtor x) (called x).
  Definition with_dtor (x : inst) (d : destructor) : inst := Inst (destructing x) (borrowers x) (total x) d (called x).

  Inductive action :=
  | MakeOwned (h : nat)                      (* 347-363, 456-459 *)
  | MoveOwned (h g : nat)                    (* Owned h(std::move(g)), 365-370 *)
  | Borrow (h g : nat) (cb : C)              (* 176-180: Borrowed h(g), BorrowedWithCallback h(g, cb) *)
  | MoveConstruct (h g : nat) (cb : C)       (* 182-186 *)
  | MoveAssign (h g : nat) (cb : C)          (* 421-424, 451-454: h = std::move(g) *)
  | Release (h : nat)                        (* 207, 281-296: the destructor of the handle, or h = nullptr *)
  | ReleaseNotify (h : nat)                  (* 130-133 *)
  | Destroy (h : nat)                        (* ~Owned begins: ~WeakBorrowed, then 92 *)
  | Continue (i : nat)                       (* the next step of ~UniqueInstance *)
  | SpuriousWake (i : nat).

  (** WeakBorrowed::MoveFrom, 193-200.  [h] is written, then [g] is abandoned (in this order: they may be the same). *)
  Definition move_from (s : state) (h g : nat) (i : nat) (cb : C) : state :=
    let k := key (handles s g) in
    let x := insts s i in
    let h1 := upd (handles s) h (Handle (container (handles s h)) (Some i) k None) in
    let hs := upd h1 g (Handle (container (h1 g)) None 0 (releasing (h1 g))) in
    State hs (upd (insts s) i (with_borrowers x (put k cb (borrowers x)) (total x))) (next s).

  Definition exec (s : state) (a : action) : option state :=
    match a with
    | MakeOwned h =>
        if is_null (handles s h)
        then Some (State (upd (handles s) h (Handle (Some (next s)) (Some (next s)) 0 None)) (upd (insts s) (next s) new_inst) (S (next s)))
        else None
    | MoveOwned h g =>
        match container (handles s g) with
        | Some i => if is_null (handles s h)
                    then Some (State (upd (upd (handles s) g null) h (Handle (Some i) (Some i) 0 None)) (insts s) (next s))
                    else None
        | None => None
        end
    | Borrow h g cb =>
        match p_actual_instance (handles s g) with
        | Some i => if is_null (handles s h)
                    then let x := insts s i in
                         Some (State (upd (handles s) h (Handle None (Some i) (S (total x)) None))
                                     (upd (insts s) i (with_borrowers x (put (S (total x)) cb (borrowers x)) (S (total x)))) (next s))
                    else None
        | None => None
        end
    | MoveConstruct h g cb =>
        match p_actual_instance (handles s g) with
        | Some i => if is_null (handles s h) then Some (move_from s h g i cb) else None
        | None => None
        end
    | MoveAssign h g cb =>
        match p_actual_instance (handles s g), container (handles s h), releasing (handles s h) with
        | Some i, None, None => Some (move_from s h g i cb)
        | _, _, _ => None
        end
    | Release h =>
        match p_actual_instance (handles s h), container (handles s h) with
        | Some i, None =>
            let k := key (handles s h) in
            if decide (k = 0) then Some (State (upd (handles s) h null) (insts s) (next s))
            else let x := insts s i in
                 let l := del k (borrowers x) in
                 Some (State (upd (handles s) h (Handle None None 0 (Some (i, bool_decide (l = [])))))
                             (upd (insts s) i (with_borrowers x l (total x))) (next s))
        | _, _ => None
        end
    | ReleaseNotify h =>
        match releasing (handles s h) with
        | Some (i, notify) =>
            let x := insts s i in
            Some (State (upd (handles s) h null)
                        (if notify then upd (insts s) i (with_dtor x (match dtor x with Sleeping => Woken | d => d end)) else insts s) (next s))
        | None => None
        end
    | Destroy h =>
        match container (handles s h) with
        | Some i => let x := insts s i in
                    Some (State (upd (handles s) h null) (upd (insts s) i (Inst true (borrowers x) (total x) Flagged (called x))) (next s))
        | None => None
        end
    | Continue i =>
        let x := insts s i in
        match dtor x with
        | Flagged => Some (State (handles s) (upd (insts s) i (with_dtor x (Calling (borrowers x)))) (next s))
        | Calling (f :: r) => Some (State (handles s) (upd (insts s) i (Inst (destructing x) (borrowers x) (total x) (Calling r) (called x ++ [f]))) (next s))
        | Calling [] | Woken => Some (State (handles s) (upd (insts s) i (with_dtor x (if decide (borrowers x = []) then Destroyed else Sleeping))) (next s))
        | Alive | Sleeping | Destroyed => None
        end
    | SpuriousWake i =>
        let x := insts s i in
        match dtor x with Sleeping => Some (State (handles s) (upd (insts s) i (with_dtor x Woken)) (next s)) | _ => None end
    end.

  (** IsValid(), 213-214. *)
  Definition is_valid (s : state) (h : nat) : bool :=
    match p_actual_instance (handles s h) with Some i => negb (destructing (insts s i)) | None => false end.
  (** NumberOfActiveBorrowers(), 245-248. *)
  Definition number_of_active_borrowers (s : state) (i : nat) : nat := length (borrowers (insts s i)).
End Owned.
Arguments inst : clear implicits.
Arguments state : clear implicits.
Arguments action : clear implicits.
Arguments destructor : clear implicits.
