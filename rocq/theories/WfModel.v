(** Model of the workflow parser: cli/src/workflow/{parser,store,config,request,
    event,beacon}.rs.

    A text is the list of the bytes of a UTF-8 string, as in [ProtoModel].  The
    lexer iterates over chars and counts them, while the offsets are used to
    slice bytes.  Comments may hold any char; there the model counts every byte
    that starts a char.  Outside of comments the lexer stops at the first
    non-ASCII char, i.e. at its first byte.  Error messages are reduced to their
    kind. *)
From Coq Require Import String Ascii NArith List Arith Lia Bool.
From Verif Require Import Bytes ProtoModel.
Import ListNotations.
Close Scope string_scope.
Open Scope list_scope.
Open Scope nat_scope.

(** ** Lexer: parser.rs l.38-52 [ENext], l.192-286 [next] *)

Inductive wtok :=
| WWord (w : text) (offset : nat)      (* the third component is never read *)
| WOpen (offset : nat)
| WClose (offset : nat)
| WOpenB (offset : nat)
| WCloseB (offset : nat)
| WArrow (offset : nat)
| WExcl (offset : nat)
| WQuest (offset : nat)
| WSemi (offset : nat)
| WDot (offset : nat)
| WColon (offset : nat)
| WEnd.

(** parser.rs l.54-59 *)
Inductive wlexerr := WNotAscii | WNumericFirst | WNotSupported | WInvalidSyntax.

(** '\n' (chars.rs l.17 [CARET]) *)
Definition lf : ascii := ascii_of_N 10.

(** second and later bytes of a char *)
Definition is_cont (c : ascii) : bool := in_range 128 191 c.

(** parser.rs l.195-206 *)
Definition wbreak_chars : list ascii := ["}"; "{"; ":"; "?"; ";"; "."; "("; ")"; ">"; "!"]%char.
Definition is_wbreak (c : ascii) : bool := existsb (Ascii.eqb c) wbreak_chars.

(** parser.rs l.239-252 *)
Definition symbol (c : ascii) (pass : nat) : wtok :=
  (if Ascii.eqb c ";" then WSemi pass
   else if Ascii.eqb c "{" then WOpen pass
   else if Ascii.eqb c "}" then WClose pass
   else if Ascii.eqb c "." then WDot pass
   else if Ascii.eqb c ":" then WColon pass
   else if Ascii.eqb c "(" then WOpenB pass
   else if Ascii.eqb c ")" then WCloseB pass
   else if Ascii.eqb c ">" then WArrow pass
   else if Ascii.eqb c "!" then WExcl pass
   else WQuest pass)%char.

(** parser.rs l.255-258: [c] occurs in the word, but not as its first char *)
Definition misplaced (c : ascii) (str : text) : bool :=
  match str with
  | d :: _ => negb (Ascii.eqb c d) && existsb (Ascii.eqb c) str
  | [] => false
  end.

(** parser.rs l.192-286 [next]; [str], [pass], [limited] and [comment] are the
    variables of the loop *)
Fixpoint wlex (content str : text) (pass : nat) (limited comment : bool) : res wtok wlexerr :=
  match content with
  | [] =>
    match str with
    | [] => Ok WEnd
    | _ => Ok (WWord str (pass - 1))
    end
  | c :: content =>
    if comment && negb (Ascii.eqb c lf)
    then wlex content str (if is_cont c then pass else S pass) limited true
    else if Ascii.eqb c "#" then wlex content str (S pass) limited true
    else
      let pass := S pass in
      let empty := match str with [] => true | _ => false end in
      if negb (is_ascii c) then Err WNotAscii
      else if is_digit c && empty then Err WNumericFirst
      else if is_ws c && empty then wlex content str pass limited false
      else if is_wbreak c && empty then Ok (symbol c pass)
      else if is_ws c || is_wbreak c then
        if limited && (misplaced "&" str || misplaced "@" str)
        then Err WInvalidSyntax
        else Ok (WWord str (pass - 1))
      else
        let limited := limited || Ascii.eqb c "@" || Ascii.eqb c "&" in
        if negb (is_alnum c) && negb (Ascii.eqb c "_") && negb limited then Err WNotSupported
        else wlex content (str ++ [c]) pass limited false
  end.

(** ** Entities *)

(** the [EExpectation]s of config.rs l.23-31, request.rs l.4-15, event.rs
    l.8-17 and beacon.rs l.8-16 *)
Inductive wexp :=
| QWord | QSemi | QDot | QOpen | QClose | QArrow | QOpenB | QCloseB | QExcl | QQuest | QColon
| QComma.

Definition wexp_eqb (a b : wexp) : bool :=
  match a, b with
  | QWord, QWord | QSemi, QSemi | QDot, QDot | QOpen, QOpen | QClose, QClose | QArrow, QArrow
  | QOpenB, QOpenB | QCloseB, QCloseB | QExcl, QExcl | QQuest, QQuest | QColon, QColon
  | QComma, QComma => true
  | _, _ => false
  end.
Definition expects (xs : list wexp) (x : wexp) : bool := existsb (wexp_eqb x) xs.

Inductive werr :=
| EUnexpected     (* a symbol or word at the wrong place *)
| EUndefined      (* a reference the protocol does not define *)
| EIncomplete     (* something is missing *)
| EDuplicate.     (* something is defined twice *)

(** [format!("{}{}{}", path, if path.is_empty() { "" } else { "." }, word)],
    e.g. beacon.rs l.145-150 *)
Definition extend (path w : text) : text :=
  match path with
  | [] => w
  | _ => path ++ "."%char :: w
  end.

(** [str::split('.')] *)
Fixpoint split_dots (t : text) : list text :=
  match t with
  | [] => [[]]
  | c :: t =>
    if Ascii.eqb c "." then [] :: split_dots t
    else match split_dots t with
         | p :: ps => (c :: p) :: ps
         | [] => [[c]]
         end
  end.

(** protocol/store.rs l.196-204 [find_by_str_path(0, path).is_some()] *)
Definition defined (p : store) (reference : text) : bool :=
  match find_by_path p 0 (split_dots reference) with
  | Some _ => true
  | None => false
  end.

(** *** Config: config.rs *)

(** cli/src/render.rs [Target] *)
Inductive target := TRust | TTypeScript.
Definition target_eqb (a b : target) : bool :=
  match a, b with TRust, TRust | TTypeScript, TTypeScript => true | _, _ => false end.

(** config.rs l.33-40 *)
Inductive cpending := CNothing | CProducer | CConsumer | CSelf (p : text) | CAssigned (p : text).

(** config.rs l.42-53; [self_key_response] is constant, [prev] is never read *)
Record wconfig := mkConfig {
  cf_producer : list target; cf_consumer : list target;
  cf_self : option text; cf_assigned : option text;
  cf_closed : bool; cf_exp : list wexp; cf_pend : cpending
}.

(** config.rs l.62-79 *)
Definition config_new : wconfig := mkConfig [] [] None None false [QOpen] CNothing.

(** config.rs l.81-88, l.102-109 *)
Definition target_of (alias : text) : option target :=
  if teqb alias (txt "rust") then Some TRust
  else if teqb alias (txt "typescript") then Some TTypeScript
  else None.

(** config.rs l.81-121 [add_producer], [add_consumer] *)
Definition add_target (ts : list target) (alias : text) : res (list target) werr :=
  match target_of alias with
  | None => Err EUnexpected
  | Some t => if existsb (target_eqb t) ts then Err EDuplicate else Ok (ts ++ [t])
  end.

(** config.rs l.13-21, store.rs l.4 *)
Definition service (name : string) : text := service_group ++ "."%char :: txt name.
Definition str_field (name : string) (opt : bool) : text * text * bool := (txt name, txt "str", opt).

(** config.rs l.140-193: what [close] does to the protocol before it looks at
    the targets, with the keys it chooses *)
Definition close_keys (c : wconfig) (p : store) : res (text * text * store) werr :=
  do a <- match cf_self c with
          | Some k =>
            if defined p k
            then Ok (k, add_service_struct p (txt "SelfKeyResponse") [str_field "uuid" false])
            else Err EUndefined
          | None =>
            let p1 := add_service_struct p (txt "SelfKeyRequest") [str_field "uuid" true] in
            let p2 := add_service_struct p1 (txt "SelfKeyResponse") [str_field "uuid" false] in
            Ok (service "SelfKeyRequest", p2)
          end;
  let '(k, p) := a in
  match cf_assigned c with
  | Some k2 => if defined p k2 then Ok (k, k2, p) else Err EUndefined
  | None => Ok (k, service "AssignedKey", add_service_struct p (txt "AssignedKey") [])
  end.

(** config.rs l.139-243 [close] *)
Definition config_close (c : wconfig) (p : store) : res (wconfig * store) werr :=
  do a <- close_keys c p;
  let '(k, k2, p) := a in
  match cf_producer c, cf_consumer c with
  | [], _ => Err EIncomplete
  | _, [] => Err EIncomplete
  | _, _ =>
    let p := add_service_struct p (txt "HashRequest")
               [str_field "protocol" false; str_field "workflow" false] in
    let p := add_service_struct p (txt "HashResponse") [str_field "error" true] in
    let p := add_service_struct p (txt "BeaconConfirmation") [str_field "error" true] in
    let p := add_service_struct p (txt "ConnectConfirmationBeacon") [] in
    Ok (mkConfig (cf_producer c) (cf_consumer c) (Some k) (Some k2) true (cf_exp c) (cf_pend c), p)
  end.

Definition c_expect (c : wconfig) (xs : list wexp) : wconfig :=
  mkConfig (cf_producer c) (cf_consumer c) (cf_self c) (cf_assigned c) (cf_closed c) xs (cf_pend c).
Definition c_state (c : wconfig) (xs : list wexp) (q : cpending) : wconfig :=
  mkConfig (cf_producer c) (cf_consumer c) (cf_self c) (cf_assigned c) (cf_closed c) xs q.

Definition nonempty {A : Type} (l : list A) : bool := match l with [] => false | _ => true end.
Definition is_some {A : Type} (o : option A) : bool := match o with Some _ => true | None => false end.

(** config.rs l.289-324: a key word.  The [matches!(prev, ..)] of l.306-311 and
    l.317-322 look at the word itself and are false. *)
Definition config_key (c : wconfig) (w : text) : res wconfig werr :=
  if teqb w (txt "Producer") then
    if nonempty (cf_producer c) then Err EDuplicate else Ok (c_state c [QColon] CProducer)
  else if teqb w (txt "Consumer") then
    if nonempty (cf_consumer c) then Err EDuplicate else Ok (c_state c [QColon] CConsumer)
  else if teqb w (txt "AssignedKey") then
    if is_some (cf_assigned c) then Err EDuplicate else Ok (c_state c [QColon] (CAssigned []))
  else if teqb w (txt "SelfKey") then
    if is_some (cf_self c) then Err EDuplicate else Ok (c_state c [QColon] (CSelf []))
  else Err EUnexpected.

(** config.rs l.271-453 [next]: the new state; the offset is that of the token *)
Definition config_next (c : wconfig) (t : wtok) (p : store) : res (wconfig * store) werr :=
  match t with
  | WOpen _ =>
    if expects (cf_exp c) QOpen then Ok (c_expect c [QWord], p) else Err EUnexpected
  | WWord w _ =>
    if expects (cf_exp c) QWord then
      match cf_pend c with
      | CNothing => do c' <- config_key c w; Ok (c', p)
      | CProducer =>
        do ts <- add_target (cf_producer c) w;
        Ok (mkConfig ts (cf_consumer c) (cf_self c) (cf_assigned c) (cf_closed c)
                     [QWord; QComma; QSemi] CProducer, p)
      | CConsumer =>
        do ts <- add_target (cf_consumer c) w;
        Ok (mkConfig (cf_producer c) ts (cf_self c) (cf_assigned c) (cf_closed c)
                     [QWord; QComma; QSemi] CConsumer, p)
      | CAssigned q => Ok (c_state c [QWord; QDot; QSemi] (CAssigned (extend q w)), p)
      | CSelf q => Ok (c_state c [QWord; QDot; QSemi] (CSelf (extend q w)), p)
      end
    else Err EUnexpected
  | WDot _ => if expects (cf_exp c) QDot then Ok (c_expect c [QWord], p) else Err EUnexpected
  | WColon _ => if expects (cf_exp c) QColon then Ok (c_expect c [QWord], p) else Err EUnexpected
  | WSemi _ =>
    if expects (cf_exp c) QSemi then
      match cf_pend c with
      | CNothing => Err EUnexpected
      | CConsumer =>
        if nonempty (cf_consumer c) then Ok (c_state c [QWord] CNothing, p) else Err EIncomplete
      | CProducer =>
        if nonempty (cf_producer c) then Ok (c_state c [QWord] CNothing, p) else Err EIncomplete
      | CAssigned q =>
        if is_some (cf_assigned c) then Err EDuplicate
        else Ok (mkConfig (cf_producer c) (cf_consumer c) (cf_self c) (Some q) (cf_closed c)
                          [QWord] CNothing, p)
      | CSelf q =>
        if is_some (cf_self c) then Err EDuplicate
        else Ok (mkConfig (cf_producer c) (cf_consumer c) (Some q) (cf_assigned c) (cf_closed c)
                          [QWord] CNothing, p)
      end
    else Err EUnexpected
  | WClose _ => config_close c p
  | _ => Err EUnexpected
  end.

(** *** Broadcasts and beacons: beacon.rs *)

(** beacon.rs l.24-28 *)
Record wbroadcast := mkBroadcast { bc_ref : text; bc_opt : bool }.

(** beacon.rs l.43-49; [Pending::Broadcast(path)] is [Some path] *)
Record wbeacons := mkBeacons {
  bs_list : list wbroadcast; bs_exp : list wexp; bs_pend : option text; bs_closed : bool
}.

(** beacon.rs l.58-64 *)
Definition beacons_new : wbeacons := mkBeacons [] [QOpen] None false.

(** beacon.rs l.66-85 [close] *)
Definition beacons_close (b : wbeacons) (p : store) : res wbeacons werr :=
  if negb (nonempty (bs_list b)) then Err EIncomplete
  else if forallb (fun x => defined p (bc_ref x)) (bs_list b)
  then Ok (mkBeacons (bs_list b) [] None true)
  else Err EUndefined.

(** beacon.rs l.105-276 [next] *)
Definition beacons_next (b : wbeacons) (t : wtok) (p : store) : res wbeacons werr :=
  match t with
  | WOpen _ =>
    if expects (bs_exp b) QOpen then Ok (mkBeacons (bs_list b) [QArrow] None (bs_closed b))
    else Err EUnexpected
  | WWord w _ =>
    match bs_pend b with
    | Some q => Ok (mkBeacons (bs_list b) [QWord; QDot; QSemi] (Some (extend q w)) (bs_closed b))
    | None => Err EUnexpected
    end
  | WDot _ =>
    if expects (bs_exp b) QDot then Ok (mkBeacons (bs_list b) [QWord] (bs_pend b) (bs_closed b))
    else Err EUnexpected
  | WSemi _ =>
    if expects (bs_exp b) QSemi then
      match bs_pend b with
      | Some q =>
        if nonempty q
        then Ok (mkBeacons (bs_list b ++ [mkBroadcast q false]) [QArrow; QClose] None (bs_closed b))
        else Err EIncomplete
      | None => Err EUnexpected
      end
    else Err EUnexpected
  | WArrow _ =>
    if expects (bs_exp b) QArrow then
      match bs_pend b with
      | None => Ok (mkBeacons (bs_list b) [QWord; QDot] (Some []) (bs_closed b))
      | Some _ => Err EUnexpected
      end
    else Err EUnexpected
  | WClose _ =>
    if expects (bs_exp b) QClose then
      match bs_pend b with
      | None => beacons_close b p
      | Some _ => Err EUnexpected
      end
    else Err EUnexpected
  | _ => Err EUnexpected
  end.

(** *** Events: event.rs *)

(** event.rs l.19-24 *)
Inductive epending := ENothing | EReference (p : text) | EBroadcast (b : wbroadcast).

(** event.rs l.26-33 *)
Record wevent := mkEvent {
  ev_ref : option text; ev_list : list wbroadcast;
  ev_exp : list wexp; ev_pend : epending; ev_closed : bool
}.

(** event.rs l.36-48 *)
Definition event_new (reference : text) : wevent :=
  mkEvent None [] [QWord; QDot; QOpen] (EReference reference) false.

(** event.rs l.4-7, l.91-98 [is_default] *)
Definition default_event (reference : text) : bool :=
  teqb reference (txt "connected") || teqb reference (txt "disconnected").

(** event.rs l.50-83 [close] *)
Definition event_close (e : wevent) (p : store) : res wevent werr :=
  match ev_ref e with
  | None => Err EIncomplete
  | Some r =>
    if negb (default_event r) && negb (defined p r) then Err EUndefined
    else if negb (nonempty (ev_list e)) then Err EIncomplete
    else if forallb (fun x => defined p (bc_ref x)) (ev_list e)
    then Ok (mkEvent (ev_ref e) (ev_list e) [] ENothing true)
    else Err EUndefined
  end.

(** event.rs l.111-364 [next] *)
Definition event_next (e : wevent) (t : wtok) (p : store) : res wevent werr :=
  match t with
  | WOpen _ =>
    if expects (ev_exp e) QOpen then
      match ev_pend e with
      | EReference q =>
        if nonempty q then Ok (mkEvent (Some q) (ev_list e) [QArrow] ENothing (ev_closed e))
        else Err EIncomplete
      | _ => Err EUnexpected
      end
    else Err EUnexpected
  | WWord w _ =>
    match ev_pend e with
    | EReference q =>
      Ok (mkEvent (ev_ref e) (ev_list e) [QWord; QDot; QOpen; QSemi] (EReference (extend q w))
                  (ev_closed e))
    | EBroadcast b =>
      Ok (mkEvent (ev_ref e) (ev_list e) [QWord; QDot; QSemi; QQuest]
                  (EBroadcast (mkBroadcast (extend (bc_ref b) w) (bc_opt b))) (ev_closed e))
    | ENothing => Err EUnexpected
    end
  | WQuest _ =>
    if expects (ev_exp e) QQuest then
      match ev_pend e with
      | EBroadcast b =>
        if nonempty (bc_ref b)
        then Ok (mkEvent (ev_ref e) (ev_list e) [QSemi] (EBroadcast (mkBroadcast (bc_ref b) true))
                         (ev_closed e))
        else Err EUnexpected
      | _ => Err EUnexpected
      end
    else Err EUnexpected
  | WDot _ =>
    if expects (ev_exp e) QDot
    then Ok (mkEvent (ev_ref e) (ev_list e) [QWord] (ev_pend e) (ev_closed e))
    else Err EUnexpected
  | WSemi _ =>
    if expects (ev_exp e) QSemi then
      match ev_pend e with
      | EReference q =>
        if nonempty q
        then event_close (mkEvent (Some q) (ev_list e) (ev_exp e) (ev_pend e) (ev_closed e)) p
        else Err EIncomplete
      | EBroadcast b =>
        if nonempty (bc_ref b)
        then Ok (mkEvent (ev_ref e) (ev_list e ++ [b]) [QArrow; QClose] ENothing (ev_closed e))
        else Err EIncomplete
      | ENothing => Err EUnexpected
      end
    else Err EUnexpected
  | WArrow _ =>
    if expects (ev_exp e) QArrow then
      match ev_pend e with
      | ENothing =>
        Ok (mkEvent (ev_ref e) (ev_list e) [QWord; QDot] (EBroadcast (mkBroadcast [] false))
                    (ev_closed e))
      | _ => Err EUnexpected
      end
    else Err EUnexpected
  | WClose _ =>
    if expects (ev_exp e) QClose then
      match ev_pend e with
      | ENothing => if is_some (ev_ref e) then event_close e p else Err EIncomplete
      | _ => Err EUnexpected
      end
    else Err EUnexpected
  | _ => Err EUnexpected
  end.

(** *** Requests: request.rs *)

(** request.rs l.26-34 *)
Record waction := mkAction {
  ac_concl : option text; ac_resp : option text; ac_bcs : list wbroadcast;
  ac_cur : text; ac_opt : bool
}.
(** request.rs l.43-51 *)
Definition action_new : waction := mkAction None None [] [] false.

(** request.rs l.17-24 *)
Inductive rpending :=
| RNothing | RError (p : text) | RRequest (p : text) | RAction (a : waction) | RBroadcast (p : text).

(** request.rs l.114-123 *)
Record wrequest := mkRequest {
  rq_ref : option text; rq_err : option text; rq_actions : list waction; rq_bcs : list text;
  rq_exp : list wexp; rq_pend : rpending; rq_closed : bool
}.

(** request.rs l.126-140 *)
Definition request_new (word : text) : wrequest :=
  mkRequest None None [] [] [QWord; QDot; QExcl] (RRequest word) false.

(** request.rs l.69-82 [valid] *)
Definition action_valid (a : waction) : bool := is_some (ac_resp a) && negb (nonempty (ac_cur a)).

(** request.rs l.169-193: one action *)
Definition action_defined (p : store) (alone : bool) (a : waction) : bool :=
  (is_some (ac_concl a) || alone) &&
  match ac_resp a with Some r => defined p r | None => false end &&
  forallb (fun b => defined p (bc_ref b)) (ac_bcs a).

(** request.rs l.142-198 [close] *)
Definition request_close (r : wrequest) (p : store) : res wrequest werr :=
  match rq_ref r with
  | None => Err EIncomplete
  | Some q =>
    if negb (defined p q) then Err EUndefined
    else if match rq_err r with
            | Some e => negb (defined p e)
            | None => nonempty (rq_actions r)
            end then Err EUndefined
    else if negb (forallb (defined p) (rq_bcs r)) then Err EUndefined
    else if negb (forallb (action_defined p (length (rq_actions r) =? 1)) (rq_actions r))
    then Err EUndefined
    else Ok (mkRequest (rq_ref r) (rq_err r) (rq_actions r) (rq_bcs r) [] RNothing true)
  end.

Definition r_state (r : wrequest) (xs : list wexp) (q : rpending) : wrequest :=
  mkRequest (rq_ref r) (rq_err r) (rq_actions r) (rq_bcs r) xs q (rq_closed r).
Definition r_action (r : wrequest) (a : waction) : wrequest :=
  mkRequest (rq_ref r) (rq_err r) (rq_actions r ++ [a]) (rq_bcs r) (rq_exp r) (rq_pend r)
            (rq_closed r).

(** request.rs l.336-403: a word inside an action *)
Definition action_word (a : waction) (w : text) : option (waction * list wexp) :=
  let a' := mkAction (ac_concl a) (ac_resp a) (ac_bcs a) (extend (ac_cur a) w) (ac_opt a) in
  match ac_resp a, ac_concl a with
  | None, None => Some (a', [QDot; QWord; QArrow; QCloseB])
  | None, Some _ => Some (a', [QDot; QWord; QCloseB])
  | Some _, Some _ => Some (a', [QDot; QWord; QSemi; QQuest])
  | Some _, None => None
  end.

(** request.rs l.254-778 [next] *)
Definition request_next (r : wrequest) (t : wtok) (p : store) : res wrequest werr :=
  match t with
  | WOpen _ =>
    if expects (rq_exp r) QOpen then
      match rq_pend r with
      | RRequest q =>
        if nonempty q
        then Ok (mkRequest (Some q) (rq_err r) (rq_actions r) (rq_bcs r) [QArrow] RNothing (rq_closed r))
        else Err EIncomplete
      | RError q =>
        if is_some (rq_ref r)
        then Ok (mkRequest (rq_ref r) (Some q) (rq_actions r) (rq_bcs r) [QOpenB] RNothing (rq_closed r))
        else Err EIncomplete
      | _ => Err EUnexpected
      end
    else Err EUnexpected
  | WWord w _ =>
    match rq_pend r with
    | RNothing => Ok r
    | RRequest q => Ok (r_state r [QWord; QDot; QSemi; QExcl; QOpen] (RRequest (extend q w)))
    | RError q => Ok (r_state r [QWord; QDot; QOpen] (RError (extend q w)))
    | RAction a =>
      match action_word a w with
      | Some (a', xs) => Ok (r_state r xs (RAction a'))
      | None => Err EUnexpected
      end
    | RBroadcast q => Ok (r_state r [QWord; QDot; QSemi] (RBroadcast (extend q w)))
    end
  | WQuest _ =>
    if expects (rq_exp r) QQuest then
      match rq_pend r with
      | RAction a =>
        if is_some (ac_resp a) && is_some (ac_concl a)
        then Ok (r_state r [QSemi]
                   (RAction (mkAction (ac_concl a) (ac_resp a) (ac_bcs a) (ac_cur a) true)))
        else Err EUnexpected
      | _ => Err EUnexpected
      end
    else Err EUnexpected
  | WDot _ =>
    if expects (rq_exp r) QDot then Ok (r_state r [QWord] (rq_pend r)) else Err EUnexpected
  | WSemi _ =>
    if expects (rq_exp r) QSemi then
      match rq_pend r with
      | RRequest q =>
        if nonempty q
        then request_close (mkRequest (Some q) (rq_err r) (rq_actions r) (rq_bcs r) (rq_exp r)
                                      (rq_pend r) (rq_closed r)) p
        else Err EIncomplete
      | RAction a =>
        if negb (nonempty (ac_cur a)) then
          if action_valid a
          then Ok (r_state (r_action r a) [QClose; QOpenB] RNothing)
          else Err EIncomplete
        else if existsb (fun b => teqb (bc_ref b) (ac_cur a)) (ac_bcs a) then Err EDuplicate
        else Ok (r_state r [QClose; QOpenB; QArrow]
                   (RAction (mkAction (ac_concl a) (ac_resp a)
                               (ac_bcs a ++ [mkBroadcast (ac_cur a) (ac_opt a)]) [] false)))
      | RBroadcast q =>
        Ok (mkRequest (rq_ref r) (rq_err r) (rq_actions r) (rq_bcs r ++ [q]) [QArrow; QClose] RNothing
                      (rq_closed r))
      | _ => Err EUnexpected
      end
    else Err EUnexpected
  | WExcl _ =>
    if expects (rq_exp r) QExcl then
      match rq_pend r with
      | RRequest q =>
        Ok (mkRequest (Some q) (rq_err r) (rq_actions r) (rq_bcs r) [QWord] (RError []) (rq_closed r))
      | _ => Err EUnexpected
      end
    else Err EUnexpected
  | WOpenB _ =>
    if expects (rq_exp r) QOpenB then
      match rq_pend r with
      | RNothing => Ok (r_state r [QWord] (RAction action_new))
      | RAction a =>
        if action_valid a then Ok (r_state (r_action r a) [QWord] (RAction action_new))
        else Err EIncomplete
      | _ => Err EUnexpected
      end
    else Err EUnexpected
  | WCloseB _ =>
    if expects (rq_exp r) QCloseB then
      match rq_pend r with
      | RAction a =>
        if negb (nonempty (ac_cur a)) then Err EIncomplete
        else if is_some (ac_resp a) then Err EDuplicate
        else Ok (r_state r [QArrow; QSemi]
                   (RAction (mkAction (ac_concl a) (Some (ac_cur a)) (ac_bcs a) [] (ac_opt a))))
      | _ => Err EUnexpected
      end
    else Err EUnexpected
  | WArrow _ =>
    if expects (rq_exp r) QArrow then
      match rq_pend r with
      | RNothing => Ok (r_state r [QWord; QDot] (RBroadcast []))
      | RAction a =>
        if negb (is_some (ac_concl a)) && negb (is_some (ac_resp a)) && nonempty (ac_cur a)
        then Ok (r_state r [QWord]
                   (RAction (mkAction (Some (ac_cur a)) (ac_resp a) (ac_bcs a) [] (ac_opt a))))
        else if is_some (ac_resp a) && negb (nonempty (ac_cur a))
        then Ok (r_state r [QWord] (RAction a))
        else Ok (r_state r (rq_exp r) (RAction a))
      | _ => Err EUnexpected
      end
    else Err EUnexpected
  | WClose _ =>
    if expects (rq_exp r) QClose then
      match rq_pend r with
      | RAction a => if action_valid a then request_close (r_action r a) p else Err EIncomplete
      | RBroadcast q =>
        if nonempty q
        then request_close (mkRequest (rq_ref r) (rq_err r) (rq_actions r) (rq_bcs r ++ [q]) (rq_exp r)
                                      RNothing (rq_closed r)) p
        else Err EIncomplete
      | _ => request_close r p
      end
    else Err EUnexpected
  | WColon _ => Err EUnexpected
  | WEnd => Err EUnexpected
  end.

(** *** Any entity *)

Inductive entity_open :=
| OConfig (c : wconfig) | ORequest (r : wrequest) | OBeacons (b : wbeacons) | OEvent (e : wevent).

(** parser.rs l.91-101 with the [open] functions: config.rs l.263-269,
    request.rs l.246-252, beacon.rs l.97-103, event.rs l.103-109 *)
Definition open_entity (w : text) : option entity_open :=
  if teqb w (txt "&config") then Some (OConfig config_new)
  else if forallb is_alnum w then Some (ORequest (request_new w))
  else if teqb w (txt "@beacons") then Some (OBeacons beacons_new)
  else match w with
       | c :: w => if Ascii.eqb c "@" then Some (OEvent (event_new w)) else None
       | [] => None
       end.

Definition entity_next (e : entity_open) (t : wtok) (p : store) : res (entity_open * store) werr :=
  match e with
  | OConfig c => do a <- config_next c t p; let '(c, p) := a in Ok (OConfig c, p)
  | ORequest r => do r <- request_next r t p; Ok (ORequest r, p)
  | OBeacons b => do b <- beacons_next b t p; Ok (OBeacons b, p)
  | OEvent e => do e <- event_next e t p; Ok (OEvent e, p)
  end.

Definition entity_closed (e : entity_open) : bool :=
  match e with
  | OConfig c => cf_closed c
  | ORequest r => rq_closed r
  | OBeacons b => bs_closed b
  | OEvent e => ev_closed e
  end.

(** ** Store: store.rs l.3-10 (without the hash) *)

Record wstore := mkWstore {
  w_events : list wevent; w_requests : list wrequest; w_beacons : list wbroadcast;
  w_config : option wconfig
}.
Definition wstore_new : wstore := mkWstore [] [] [] None.

Definition oteqb (a b : option text) : bool :=
  match a, b with Some a, Some b => teqb a b | _, _ => false end.

(** store.rs l.78-91 [add_beacon]: the loop over the new beacons *)
Fixpoint add_beacons (old new : list wbroadcast) : res (list wbroadcast) werr :=
  match new with
  | [] => Ok old
  | b :: new =>
    if existsb (fun x => teqb (bc_ref x) (bc_ref b)) old then Err EDuplicate
    else add_beacons (old ++ [b]) new
  end.

(** store.rs l.27-91 [set_config], [add_event], [add_request], [add_beacon];
    parser.rs l.117-133 *)
Definition add_entity (s : wstore) (e : entity_open) : res wstore werr :=
  match e with
  | OConfig c =>
    if is_some (w_config s) then Err EDuplicate
    else Ok (mkWstore (w_events s) (w_requests s) (w_beacons s) (Some c))
  | OEvent e =>
    if negb (is_some (ev_ref e)) then Err EIncomplete
    else if existsb (fun x => oteqb (ev_ref x) (ev_ref e)) (w_events s) then Err EDuplicate
    else Ok (mkWstore (w_events s ++ [e]) (w_requests s) (w_beacons s) (w_config s))
  | ORequest r =>
    if negb (is_some (rq_ref r)) then Err EIncomplete
    else if existsb (fun x => oteqb (rq_ref x) (rq_ref r)) (w_requests s) then Err EDuplicate
    else Ok (mkWstore (w_events s) (w_requests s ++ [r]) (w_beacons s) (w_config s))
  | OBeacons b =>
    do l <- add_beacons (w_beacons s) (bs_list b);
    Ok (mkWstore (w_events s) (w_requests s) l (w_config s))
  end.

(** store.rs l.101-108 [is_request_exist] *)
Fixpoint request_exists (rs : list wrequest) (reference : text) : res bool werr :=
  match rs with
  | [] => Ok false
  | r :: rs =>
    match rq_ref r with
    | None => Err EIncomplete
    | Some q => if teqb q reference then Ok true else request_exists rs reference
    end
  end.

(** store.rs l.110-118 [validate] *)
Fixpoint validate (rs : list wrequest) (bs : list wbroadcast) : res unit werr :=
  match bs with
  | [] => Ok tt
  | b :: bs =>
    do x <- request_exists rs (bc_ref b);
    if (x : bool) then Err EDuplicate else validate rs bs
  end.

(** ** Parser: parser.rs l.81-176 [parse] *)

Definition woffset (t : wtok) : nat :=
  match t with
  | WWord _ n | WOpen n | WClose n | WOpenB n | WCloseB n | WArrow n | WExcl n | WQuest n
  | WSemi n | WDot n | WColon n => n
  | WEnd => 0
  end.

Inductive wresult :=
| WAccepted (s : wstore) (p : store)    (* [Ok(store)]; the protocol has been changed *)
| WRejected                             (* [Err(..)] *)
| WPanicked                             (* slice inside a char *)
| WRunning.                             (* fuel used up *)

(** l.151 [content[offset..]] *)
Definition slice (content : text) (offset : nat) : option text :=
  match skipn offset content with
  | c :: rest => if is_cont c then None else Some (c :: rest)
  | [] => Some []
  end.

(** l.111-150: an entity gets a token *)
Definition feed (e : entity_open) (t : wtok) (s : wstore) (p : store)
  : res (option entity_open * wstore * store) werr :=
  do a <- entity_next e t p;
  let '(e, p) := a in
  if entity_closed e then do s <- add_entity s e; Ok (None, s, p)
  else Ok (Some e, s, p).

(** l.89-150: what one token does *)
Definition wstep (o : option entity_open) (t : wtok) (s : wstore) (p : store)
  : res (option entity_open * wstore * store) werr :=
  match o, t with
  | None, WWord w off =>
    match open_entity w with
    | None => Err EUnexpected
    | Some e => if off =? 0 then feed e t s p else Ok (Some e, s, p)
    end
  | Some e, _ => feed e t s p
  | None, _ => Err EUnexpected
  end.

Fixpoint wrun (fuel : nat) (content : text) (o : option entity_open) (s : wstore) (p : store)
  : wresult :=
  match fuel with
  | O => WRunning
  | S f =>
    match wlex content [] 0 false false with
    | Ok WEnd =>
      match validate (w_requests s) (w_beacons s) with
      | Ok _ => WAccepted s p
      | _ => WRejected
      end
    | Ok t =>
      match wstep o t s p with
      | Ok (o, s, p) =>
        match slice content (woffset t) with
        | Some content => wrun f content o s p
        | None => WPanicked
        end
      | _ => WRejected
      end
    | _ => WRejected
    end
  end.

(** the loop has no bound: [wrun] gives the outcome after a number of tokens *)
Definition wparse (fuel : nat) (t : text) (p : store) : wresult := wrun fuel t None wstore_new p.
