(** Model of CPManager (satella/coding/resources/cp_manager.py) used by any number of threads.

    Threads take turns between any two operations on what they share: the monitor's lock, the queue of idle connections (whose own
    operations are atomic), the counters and the flag. Connections are numbered in the order of creation, and the number stands for
    id(); create_connection either returns a new connection or raises, teardown_connection returns. A thread releases and fails the
    connections it holds. *)
From Verif Require Import Prelude.
Set Implicit Arguments.

(** what a thread does: k means the k-th connection it holds *)
Inductive pop : Type := Acquire | Release (k : nat) | Fail (k : nat) | Invalidate | Close.
Inductive presult : Type := Got (c : nat) | Terminating | CreateFailed | Done | NoSuch | KeyErr.
(** what is seen from outside: a connection is handed out, marked as failed, torn down *)
Inductive act : Type := Took (c : nat) | Marked (c : nat) | Tore (c : nat).

Inductive place : Type :=
| Outside
| AFirst                      (** acquire: to try the queue *)
| ALock                       (** to take the lock *)
| ACheck                      (** with the lock: to look at the size *)
| AGet                        (** with the lock: to try the queue again *)
| ACreate                     (** with the lock: to create *)
| ACountLock (c : nat)        (** to take the lock to count *)
| ACount (c : nat)            (** with the lock *)
| RCheck (c : nat)            (** release: to look at the counter *)
| RPut (c : nat)              (** to put it in the queue *)
| RKillLock (c : nat)         (** to take the lock *)
| RKill (c : nat)             (** with the lock: to drop the counter *)
| RTear (c : nat)             (** to tear it down *)
| FLock (c : nat)             (** fail: to take the lock *)
| FMark (c : nat)             (** with the lock *)
| CSet                        (** close: to set the flag *)
| ILock                       (** invalidate: to take the lock *)
| ILoop                       (** with the lock: is there anything? *)
| IGet                        (** with the lock: to get it, waiting if there is nothing *)
| ITear (c : nat).            (** with the lock: to tear it down *)
Record pthread : Type := mk_pthread { todo : list pop; held : list nat; at_ : place; results : list presult }.
Record pool : Type := mk_pool { plock : option nat; idle : list nat; counters : list (nat * Z); terminating : bool; finalized : bool;
                                next : nat; trace : list act; pthreads : list pthread }.
(** cp_manager.py:42-51 __init__ *)
Definition pstart (programs : list (list pop)) : pool :=
  mk_pool None [] [] false false 0 [] (map (fun p => mk_pthread p [] Outside []) programs).

Definition goto (th : pthread) (p : place) : pthread := mk_pthread (todo th) (held th) p (results th).
Definition finish (th : pthread) (h : list nat) (r : presult) : pthread := mk_pthread (todo th) h Outside (results th ++ [r]).

Section Pool.
  Variables max_number max_cycle_no : Z.
  (** queue.Queue(max_number): full? *)
  Definition full (q : list nat) : bool := (0 <? max_number)%Z && (max_number <=? Z.of_nat (length q))%Z.

  (** One turn of thread t. [ok]: create_connection succeeds, should it be called in this turn. *)
  Definition pturn (c : pool) (t : nat) (ok : bool) : pool :=
    match nth_error (pthreads c) t with
    | None => c
    | Some th =>
      let put l q cs th' := mk_pool l q cs (terminating c) (finalized c) (next c) (trace c) (upd (pthreads c) t th') in
      let seen l cs a th' := mk_pool l (idle c) cs (terminating c) (finalized c) (next c) (trace c ++ [a]) (upd (pthreads c) t th') in
      let same := put (plock c) (idle c) (counters c) in
      let lock_to p := match plock c with None => put (Some t) (idle c) (counters c) (goto th p) | Some _ => c end in
      match at_ th with
      | Outside =>
        match todo th with
        | [] => c
        | op :: rest =>
          let th0 := mk_pthread rest (held th) Outside (results th) in
          match op with
          (* cp_manager.py:75-76 *)
          | Acquire => if terminating c then same (finish th0 (held th) Terminating) else same (goto th0 AFirst)
          | Release k => match nth_error (held th) k with
                         | None => same (finish th0 (held th) NoSuch)
                         | Some x => same (mk_pthread rest (del_nth k (held th)) (RCheck x) (results th))
                         end
          | Fail k => match nth_error (held th) k with
                      | None => same (finish th0 (held th) NoSuch)
                      | Some x => same (goto th0 (FLock x))
                      end
          | Invalidate => same (goto th0 ILock)
          (* cp_manager.py:53-54 and coding/misc.py:100-119 Closeable.close, in one turn *)
          | Close => if finalized c then same (finish th0 (held th) Done)
                     else mk_pool (plock c) (idle c) (counters c) (terminating c) true (next c) (trace c) (upd (pthreads c) t (goto th0 CSet))
          end
        end
      (* cp_manager.py:77-91 acquire_connection *)
      | AFirst => match idle c with
                  | x :: q => put (plock c) q (counters c) (goto th (ACountLock x))
                  | [] => same (goto th ALock)
                  end
      | ALock => lock_to ACheck
      | ACheck => if (max_number <=? Z.of_nat (length (idle c)))%Z then same (goto th AGet) else same (goto th ACreate)
      | AGet => match idle c with
                | x :: q => put None q (counters c) (goto th (ACountLock x))
                | [] => put None (idle c) (counters c) (goto th ALock)
                end
      | ACreate => if ok then mk_pool None (idle c) (counters c) (terminating c) (finalized c) (S (next c)) (trace c)
                                 (upd (pthreads c) t (goto th (ACountLock (next c))))
                   else put None (idle c) (counters c) (finish th (held th) CreateFailed)
      | ACountLock x => lock_to (ACount x)
      | ACount x => seen None (dset Nat.eqb (counters c) x (match dget Nat.eqb (counters c) x with Some n => n + 1 | None => 1 end)%Z)
                      (Took x) (finish th (held th ++ [x]) (Got x))
      (* cp_manager.py:93-106 release_connection *)
      | RCheck x => match dget Nat.eqb (counters c) x with
                    | None => same (finish th (held th) KeyErr)
                    | Some n => if (max_cycle_no <=? n)%Z then same (goto th (RKillLock x)) else same (goto th (RPut x))
                    end
      | RPut x => if full (idle c) then same (goto th (RKillLock x))
                  else put (plock c) (idle c ++ [x]) (counters c) (finish th (held th) Done)
      (* cp_manager.py:108-113 _kill_connection *)
      | RKillLock x => lock_to (RKill x)
      | RKill x => match dget Nat.eqb (counters c) x with
                   | None => put None (idle c) (counters c) (finish th (held th) KeyErr)
                   | Some _ => put None (idle c) (ddel Nat.eqb (counters c) x) (goto th (RTear x))
                   end
      | RTear x => seen (plock c) (counters c) (Tore x) (finish th (held th) Done)
      (* cp_manager.py:115-122 fail_connection *)
      | FLock x => lock_to (FMark x)
      | FMark x => seen None (dset Nat.eqb (counters c) x max_cycle_no) (Marked x) (finish th (held th) Done)
      (* cp_manager.py:55-56 close *)
      | CSet => mk_pool (plock c) (idle c) (counters c) true (finalized c) (next c) (trace c) (upd (pthreads c) t (goto th ILock))
      (* cp_manager.py:58-66 invalidate *)
      | ILock => lock_to ILoop
      | ILoop => match idle c with
                 | [] => put None (idle c) (counters c) (finish th (held th) Done)
                 | _ :: _ => same (goto th IGet)
                 end
      | IGet => match idle c with
                | [] => c
                | x :: q => put (plock c) q (counters c) (goto th (ITear x))
                end
      | ITear x => match dget Nat.eqb (counters c) x with
                   | None => seen None (counters c) (Tore x) (finish th (held th) KeyErr)
                   | Some _ => seen (plock c) (ddel Nat.eqb (counters c) x) (Tore x) (goto th ILoop)
                   end
      end
    end.
  Inductive event : Type := Turn (t : nat) (ok : bool).
  Fixpoint pexec (c : pool) (es : list event) : pool := match es with [] => c | Turn t ok :: rest => pexec (pturn c t ok) rest end.
End Pool.
