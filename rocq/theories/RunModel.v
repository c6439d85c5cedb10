(** Model of the function [run] of a generated Rust producer and of
    [Control::shutdown]: cli/src/workflow/render/producer/rust/render_mod.rs l.182-201,
    l.653-836 (the loop around ProducerModel.step) and l.840-935, with
    static/implementation/emitters/shutdown.rs.

    [run] joins three pieces of code in one task: the transport's [listen], the
    listener of ProducerModel.v and the one that waits for a shutdown request.  Every
    piece of code between two [await]s is one transition.  A label names who runs and
    what the code cannot influence: what [listen] and [shutdown] of the transport
    return, which event the listener's [select!] takes next, what the shutdown handler
    returns, and what the application does with its calls of [Control::shutdown].  A
    panic of the listener is one of the task, hence of [run]. *)
From Coq Require Import List NArith Bool Arith.
From Verif Require Import Bytes ProducerModel.
Import ListNotations.

(** What [run] comes to: l.841-844 *)
Inductive rres := RunOk | RunErr (e : perr) | RunPanic.

(** A call of [Control::shutdown] (l.182-201): not yet sent, waiting for the answer,
    answered, returned, dropped by its caller *)
Inductive cstage := CNew | CWait | CAns | CRet | CDrop.
(** with its argument [wait] *)
Definition call := (bool * cstage)%type.

(** A message in the channel of l.852: the sender of the answer to call [a], if the
    call waits for one *)
Definition request := option nat.

(** The third piece of code, l.888-907: waiting for a request, inside
    [server_control.shutdown()], ended; with the value of [shutdown_response] *)
Inductive shut := SWait | SCall (q : option request) | SDone (q : option request).

(** Where [run] is: before l.863, inside [join!], inside the shutdown handler (which
    may await a call), returned *)
Inductive phase := FNew | FJoin | FEmit (aw : option nat) | FOver (r : rres).

Section Run.
Variable E : env.

(** The second piece, l.880-887: in [select!], in the code for an event (whose
    handlers may await a call), ended *)
Inductive listener := LIdle (s : st E) | LBusy (e : event) (aw : option nat) (s : st E) | LEnded (r : option perr) (s : st E).

Record rst := mkRst {
  r_phase : phase;
  r_srv : option (option perr);      (* what the first piece, l.870-879, returned; [Some None] is [Ok] *)
  r_lst : listener;
  r_sht : shut;
  r_cancel : bool;                   (* the token of l.854 *)
  r_chan : list request;             (* l.852, capacity 2 *)
  r_calls : list call
}.

Definition start (w : e_world E) : rst := mkRst FNew None (LIdle (ProducerModel.start E w)) SWait false [] [].

Definition set_phase f s := mkRst f (r_srv s) (r_lst s) (r_sht s) (r_cancel s) (r_chan s) (r_calls s).
Definition set_srv r s := mkRst (r_phase s) (Some r) (r_lst s) (r_sht s) true (r_chan s) (r_calls s).
Definition set_lst l c s := mkRst (r_phase s) (r_srv s) l (r_sht s) (r_cancel s || c) (r_chan s) (r_calls s).
Definition set_sht h c q s := mkRst (r_phase s) (r_srv s) (r_lst s) h (r_cancel s || c) q (r_calls s).
Definition set_calls q l s := mkRst (r_phase s) (r_srv s) (r_lst s) (r_sht s) (r_cancel s) q l.

Fixpoint set_nth (a : nat) (c : call) (l : list call) : list call :=
  match l, a with
  | [], _ => []
  | _ :: l, O => c :: l
  | d :: l, S a => d :: set_nth a c l
  end.
Definition stage (a : nat) (c : cstage) (s : rst) : rst :=
  match nth_error (r_calls s) a with
  | Some (w, _) => set_calls (r_chan s) (set_nth a (w, c) (r_calls s)) s
  | None => s
  end.

(** the call an awaiting handler waits for is no longer there *)
Definition returned (aw : option nat) (s : rst) : bool :=
  match aw with
  | None => true
  | Some a => match nth_error (r_calls s) a with Some (_, CRet) | Some (_, CDrop) | None => true | _ => false end
  end.

(** the sender of the answer to call [a] exists; when [run] returns it drops the
    channel and what is in it *)
Definition is_for (a : nat) (q : request) : bool := match q with Some b => Nat.eqb a b | None => false end.
Definition has_sender (a : nat) (s : rst) : bool :=
  match r_phase s with
  | FOver _ => false
  | FEmit _ => existsb (is_for a) (r_chan s)
  | _ => existsb (is_for a) (r_chan s) ||
         match r_sht s with SCall (Some q) | SDone (Some q) => is_for a q | _ => false end
  end.

Inductive label :=
| LObserver (ok : bool)             (* l.863 *)
| LServer (ok : bool)               (* [server.listen()] returns: l.872-873 *)
| LServerCancel                     (* l.874 *)
| LBegin (e : event)                (* [select!] of the listener: l.669-683 *)
| LClosed                           (* the transport has closed its channel: l.670-672 *)
| LAwait (a : nat)                  (* the running handler awaits call [a] *)
| LFinish                           (* the code for the event ends *)
| LShut | LShutCancel               (* l.893-896 *)
| LShutDone (ok : bool)             (* [server_control.shutdown()] returns: l.897-906 *)
| LJoined                           (* l.909-924 *)
| LEmitted (ok : bool)              (* the shutdown handler returns: l.925-934 *)
| LCall (wait : bool) | LSend (a : nat) | LReturn (a : nat) | LDrop (a : nat).

Inductive rout :=
| XSrv (r : option perr) | XLst (r : option perr) | XStop (ok : bool)   (* the three pieces have ended *)
| XTurn (e : event) | XOut (o : out E)                  (* the listener took an event, and what it did then *)
| XShutdown | XShutdownRet (ok : bool)                  (* the shutdown handler is called, has returned *)
| XEnd (r : rres)                                       (* [run] returns *)
| XCall (a : nat) (wait : bool) | XRet (a : nat) (ok : bool).

(** l.928-934 *)
Definition cause (rs rl : option perr) : rres :=
  match rs with Some e => RunErr e | None => match rl with Some e => RunErr e | None => RunOk end end.

Definition fire (l : label) (s : rst) : option (rst * list rout) :=
  match l with
  | LObserver ok =>
    match r_phase s with
    | FNew => if ok then Some (set_phase FJoin s, []) else Some (set_phase (FOver (RunErr EServer)) s, [XEnd (RunErr EServer)])
    | _ => None
    end
  | LServer ok =>
    match r_phase s, r_srv s with
    | FJoin, None => let r := if ok then None else Some EServer in Some (set_srv r s, [XSrv r])
    | _, _ => None
    end
  | LServerCancel =>
    match r_phase s, r_srv s with
    | FJoin, None => if r_cancel s then Some (set_srv None s, [XSrv None]) else None
    | _, _ => None
    end
  | LBegin e =>
    match r_phase s, r_lst s with
    | FJoin, LIdle p =>
      match e with
      | VCancel => if r_cancel s then Some (set_lst (LBusy e None p) false s, []) else None
      | _ => Some (set_lst (LBusy e None p) false s, [])
      end
    | _, _ => None
    end
  | LClosed =>
    match r_phase s, r_lst s with
    | FJoin, LIdle p => Some (set_lst (LEnded None p) true s, [XLst None])
    | _, _ => None
    end
  | LAwait a =>
    match nth_error (r_calls s) a with
    | None => None
    | Some _ =>
      match r_phase s, r_lst s with
      | FEmit None, _ => Some (set_phase (FEmit (Some a)) s, [])
      | FJoin, LBusy e None p => Some (set_lst (LBusy e (Some a) p) false s, [])
      | _, _ => None
      end
    end
  | LFinish =>
    match r_phase s, r_lst s with
    | FJoin, LBusy e aw p =>
      if returned aw s then
        let '(t, (p', r)) := step E e p in
        let os := XTurn e :: map XOut t in
        match r with
        | PGo true => Some (set_lst (LIdle p') false s, os)
        | PGo false => Some (set_lst (LEnded None p') true s, os ++ [XLst None])
        | PStop x => Some (set_lst (LEnded (Some x) p') true s, os ++ [XLst (Some x)])
        | PPanic => Some (set_phase (FOver RunPanic) (set_lst (LEnded None p') true s), os ++ [XEnd RunPanic])
        end
      else None
    | _, _ => None
    end
  | LShut =>
    match r_phase s, r_sht s, r_chan s with
    | FJoin, SWait, q :: c => Some (set_sht (SCall (Some q)) false c s, [])
    | _, _, _ => None
    end
  | LShutCancel =>
    match r_phase s, r_sht s with
    | FJoin, SWait => if r_cancel s then Some (set_sht (SCall None) false (r_chan s) s, []) else None
    | _, _ => None
    end
  | LShutDone ok =>
    match r_phase s, r_sht s with
    | FJoin, SCall q => Some (set_sht (SDone q) true (r_chan s) s, [XStop ok])
    | _, _ => None
    end
  | LJoined =>
    match r_phase s, r_srv s, r_lst s, r_sht s with
    | FJoin, Some _, LEnded _ _, SDone q =>
      match q with
      | Some (Some a) =>
        match nth_error (r_calls s) a with
        | Some (_, CWait) => Some (set_phase (FEmit None) (stage a CAns s), [XShutdown])
        | _ => Some (set_phase (FOver (RunErr EChannel)) s, [XEnd (RunErr EChannel)])
        end
      | _ => Some (set_phase (FEmit None) s, [XShutdown])
      end
    | _, _, _, _ => None
    end
  | LEmitted ok =>
    match r_phase s, r_srv s, r_lst s with
    | FEmit aw, Some rs, LEnded rl _ =>
      if returned aw s then
        let r := if ok then cause rs rl else RunErr EEmitter in
        Some (set_phase (FOver r) s, [XShutdownRet ok; XEnd r])
      else None
    | _, _, _ => None
    end
  | LCall w =>                                          (* the application gets its [Control] from a handler *)
    match r_phase s with
    | FNew => None
    | _ => Some (set_calls (r_chan s) (r_calls s ++ [(w, CNew)]) s, [XCall (length (r_calls s)) w])
    end
  | LSend a =>                                          (* l.186-191, l.196-198 *)
    match nth_error (r_calls s) a with
    | Some (w, CNew) =>
      match r_phase s with
      | FOver _ => Some (stage a CRet s, [XRet a false])
      | _ =>
        if Nat.ltb (length (r_chan s)) 2 then
          let s1 := set_calls (r_chan s ++ [if w then Some a else None]) (r_calls s) s in
          if w then Some (stage a CWait s1, []) else Some (stage a CRet s1, [XRet a true])
        else None
      end
    | _ => None
    end
  | LReturn a =>                                        (* l.192-194 *)
    match nth_error (r_calls s) a with
    | Some (_, CAns) => Some (stage a CRet s, [XRet a true])
    | Some (_, CWait) => if has_sender a s then None else Some (stage a CRet s, [XRet a false])
    | _ => None
    end
  | LDrop a =>
    match nth_error (r_calls s) a with
    | Some (_, CNew) | Some (_, CWait) | Some (_, CAns) => Some (stage a CDrop s, [])
    | _ => None
    end
  end.

(** An execution: the state and everything that happened. *)
Fixpoint runs (ls : list label) (s : rst) : option (rst * list rout) :=
  match ls with
  | [] => Some (s, [])
  | l :: ls =>
    match fire l s with
    | None => None
    | Some (s1, t) => match runs ls s1 with Some (s2, t2) => Some (s2, t ++ t2) | None => None end
    end
  end.

End Run.
