(** Model of Monitor (satella/coding/concurrent/monitor.py), and of what is built on it: AtomicNumber
    (satella/coding/concurrent/atomic.py) and MonitorSet.

    Threads take turns at any point between two steps; a step is a read or a write of the protected object (or both, if
    that is one bytecode operation). A thread that finds the lock taken does nothing in its turn. *)
From Verif Require Import Prelude.
Set Implicit Arguments.
Local Open Scope Z_scope.

Section Monitor.
  (** the protected object, calls of its methods, what they return or raise *)
  Variables S O R : Type.

  (** the body of a method, as steps *)
  Inductive code : Type := Return (r : R) | Step (f : S -> S * code).
  Variable body : O -> code.

  Record thread : Type := mk_thread { todo : list O; inside : option code; results : list R }.
  Record config : Type := mk_config { lock : option nat; shared : S; threads : nat -> thread }.
  Definition start (s : S) (programs : nat -> list O) : config :=
    mk_config None s (fun t => mk_thread (programs t) None []).
  Definition set_thread (c : config) (t : nat) (th : thread) : nat -> thread :=
    fun t' => if Nat.eqb t' t then th else threads c t'.

  (** monitor.py:72-86 Monitor.synchronized, and monitor.py:118-141 Monitor.acquire around the body: acquire, the body's steps,
      release. The lock (monitor.py:47) is not reentrant. *)
  Definition turn (c : config) (t : nat) : config :=
    let th := threads c t in
    match inside th with
    | None =>
      match todo th, lock c with
      | o :: _, None => mk_config (Some t) (shared c) (set_thread c t (mk_thread (todo th) (Some (body o)) (results th)))
      | _, _ => c
      end
    | Some (Step f) =>
      let (s', k) := f (shared c) in
      mk_config (lock c) s' (set_thread c t (mk_thread (todo th) (Some k) (results th)))
    | Some (Return r) => mk_config None (shared c) (set_thread c t (mk_thread (tl (todo th)) None (results th ++ [r])))
    end.
  Fixpoint exec (c : config) (schedule : list nat) : config :=
    match schedule with
    | [] => c
    | t :: rest => exec (turn c t) rest
    end.

  (** the body without anybody interfering *)
  Fixpoint run_code (s : S) (k : code) : S * R :=
    match k with
    | Return r => (s, r)
    | Step f => let (s', k') := f s in run_code s' k'
    end.
End Monitor.
Arguments Return {S R} r.
Arguments Step {S R} f.

(** ** AtomicNumber holding an int, with operands that are ints *)
Inductive binop : Type := Add | Sub | Mul | FloorDiv | Mod | Pow | And | Or | Xor | LShift | RShift.
Inductive cmpop : Type := Eq | Lt | Le | Gt | Ge.
Inductive unop : Type := Neg | Pos | Abs | Int.
(** a op= n; a op n; n op a; a op n (compare); op a; bool(a) *)
Inductive number_op : Type :=
| InPlace (b : binop) (n : Z) | Left (b : binop) (n : Z) | Right (b : binop) (n : Z) | Compare (c : cmpop) (n : Z) | Unary (u : unop) | Truth.
Inductive answer : Type := ASelf | ANumber (z : Z) | ABool (b : bool).

(** Python's operators on ints. Those that give a float are not modelled: a negative exponent; true division. *)
Definition py_binop (b : binop) (x y : Z) : res Z :=
  match b with
  | Add => Ok (x + y)
  | Sub => Ok (x - y)
  | Mul => Ok (x * y)
  | FloorDiv => if y =? 0 then Err ZeroDivision else Ok (x / y)
  | Mod => if y =? 0 then Err ZeroDivision else Ok (x mod y)
  | Pow => if y <? 0 then Err NotImplementedExn else Ok (x ^ y)
  | And => Ok (Z.land x y)
  | Or => Ok (Z.lor x y)
  | Xor => Ok (Z.lxor x y)
  | LShift => if y <? 0 then Err ValueError else Ok (Z.shiftl x y)
  | RShift => if y <? 0 then Err ValueError else Ok (Z.shiftr x y)
  end.
Definition py_compare (c : cmpop) (x y : Z) : bool :=
  match c with Eq => x =? y | Lt => x <? y | Le => x <=? y | Gt => y <? x | Ge => y <=? x end.
Definition py_unop (u : unop) (x : Z) : Z := match u with Neg => - x | Pos => x | Abs => Z.abs x | Int => x end.

(** reading the number, then something *)
Definition load (k : Z -> code Z (res answer)) : code Z (res answer) := Step (fun v => (v, k v)).
Definition store (v : Z) : code Z (res answer) := Step (fun _ => (v, Return (Ok ASelf))).
(** the bodies of the methods of AtomicNumber: in place atomic.py:80-93, 119-127, 141-145, 151-154, 204-226; with the number on the
    left atomic.py:56-66, 103-109, 147-149, 184-202; on the right atomic.py:68-78, 111-117, 156-182; compared atomic.py:99-101,
    129-139, 228-234; alone atomic.py:236-258. There are no methods for %. *)
Definition number_body (o : number_op) : code Z (res answer) :=
  match o with
  | InPlace Mod _ | Left Mod _ | Right Mod _ => Return (Err TypeError)
  | InPlace b n => load (fun v => match py_binop b v n with Ok w => store w | Err e => Return (Err e) end)
  | Left b n => load (fun v => Return (match py_binop b v n with Ok w => Ok (ANumber w) | Err e => Err e end))
  | Right b n => load (fun v => Return (match py_binop b n v with Ok w => Ok (ANumber w) | Err e => Err e end))
  | Compare c n => load (fun v => Return (Ok (ABool (py_compare c v n))))
  | Unary u => load (fun v => Return (Ok (ANumber (py_unop u v))))
  | Truth => load (fun v => Return (Ok (ABool (negb (v =? 0)))))
  end.

(** ** MonitorSet.insert_and_check, monitor.py:244-255; the set is a list without order *)
Section MonitorSet.
  Variable A : Type.
  Variable eqb : A -> A -> bool.
  Definition insert_and_check (item : A) : code (list A) bool :=
    Step (fun s => (s, if memb eqb item s then Return false else Step (fun s => (item :: s, Return true)))).
End MonitorSet.

(** ** Two AtomicNumbers: what an operation on number i with number j as the operand does to the locks.
    atomic.py:228-234: __eq__ locks itself, then the other one; a + b and the like do so too, since int + AtomicNumber calls
    __radd__ of the operand (atomic.py:184-186, 180-182). *)
Inductive stage : Type := Before | Want | Both | After.
Record locker : Type := mk_locker { calls : list (nat * nat); at_ : stage; finished : nat }.
Record locks : Type := mk_locks { held : nat -> option nat; lockers : nat -> locker }.
Definition fset {T} (f : nat -> T) (i : nat) (v : T) : nat -> T := fun x => if Nat.eqb x i then v else f x.
Definition start_locks (programs : nat -> list (nat * nat)) : locks :=
  mk_locks (fun _ => None) (fun t => mk_locker (programs t) Before 0).
Definition lock_turn (c : locks) (t : nat) : locks :=
  let th := lockers c t in
  match calls th with
  | [] => c
  | (i, j) :: rest =>
    match at_ th with
    | Before => match held c i with
                | None => mk_locks (fset (held c) i (Some t)) (fset (lockers c) t (mk_locker (calls th) Want (finished th)))
                | Some _ => c
                end
    | Want => match held c j with
              | None => mk_locks (fset (held c) j (Some t)) (fset (lockers c) t (mk_locker (calls th) Both (finished th)))
              | Some _ => c
              end
    | Both => mk_locks (fset (held c) j None) (fset (lockers c) t (mk_locker (calls th) After (finished th)))
    | After => mk_locks (fset (held c) i None) (fset (lockers c) t (mk_locker rest Before (S (finished th))))
    end
  end.
Fixpoint lock_exec (c : locks) (schedule : list nat) : locks :=
  match schedule with
  | [] => c
  | t :: rest => lock_exec (lock_turn c t) rest
  end.
