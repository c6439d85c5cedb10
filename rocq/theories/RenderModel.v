(** Model of the workflow renderers: cli/src/workflow/render/.

    A renderer is a list of file operations, performed one after the other until
    one of them fails.  A file's content is what was put into which template
    ([doc]); the text between the holes is not modelled, except that the modules
    a Rust file declares are kept.  Operations on directories are assumed to
    succeed, as is writing.  A workflow refers to ASCII names only (its lexer
    refuses others), so [to_lowercase] is modelled on ASCII. *)
From Coq Require Import String Ascii NArith List Arith Lia Bool.
From Verif Require Import Bytes ProtoModel WfModel.
Import ListNotations.
Close Scope string_scope.
Open Scope list_scope.
Open Scope nat_scope.

(** ** Names *)

(** [str::to_lowercase], [str::to_uppercase] on ASCII *)
Definition lower_char (c : ascii) : ascii :=
  if in_range 65 90 c then ascii_of_N (N_of_ascii c + 32) else c.
Definition lower (t : text) : text := map lower_char t.

(** [replace(".", by)] *)
Definition replace_dot (by_ : text) (t : text) : text :=
  flat_map (fun c => if Ascii.eqb c "." then by_ else [c]) t.

(** [x.to_lowercase().replace(".", "_")], e.g. producer/rust/render_mod.rs
    l.1075-1078; consumer/rust/render_broadcast.rs l.57 and others replace
    first, which makes no difference *)
Definition module_name (reference : text) : text := replace_dot (txt "_") (lower reference).
(** [x.replace(".", "")], e.g. producer/rust/render_mod.rs l.1138 *)
Definition plain_name (reference : text) : text := replace_dot [] reference.
(** helpers/render.rs l.52-54 [into_rust_path] *)
Definition rust_path (reference : text) : text := replace_dot (txt "::") reference.
(** helpers/string.rs l.1-7 [first_letter_lowercase] *)
Definition first_lower (t : text) : text :=
  match t with [] => [] | c :: t => lower_char c :: t end.

(** ** Files *)

(** path of a file, its components *)
Definition fpath := list text.

Inductive rbody :=
| ROne (response : text)
| RMany (conclusions : list (text * text * list (text * text * bool))).

Record carms := mkArms {
  ca_method : text; ca_type : text; ca_request : text;
  ca_arms : list (list text * text)    (* pattern of the message, variant returned *)
}.

(** a line of a diagram, without its indentation and colour: puml/ *)
Inductive line :=
| LGroup (name : text)
| LSection (name : text)
| LArrow (from arrow to : string) (message : text)
| LEnd.

Inductive doc :=
| DUser (n : nat)                          (* not written by the generator *)
| DProtocol (p : store)                    (* the rendered protocol *)
| DStatic (file : string)                  (* [include_str!] *)
| DMods (tmpl : string) (mods : list text) (* template with the modules declared in it *)
| DFill (tmpl : string) (holes : list text)
| DManifest (rest : nat) (deps : list (text * text))  (* Cargo.toml, package.json *)
| DResponse (request : text) (error : option text) (body : rbody)
| DHandler (request module : text) (body : option (list (text * list (text * bool))))
| DEvent (default : bool) (event : text) (broadcasts : list (text * text * bool))
| DEmitter (default : bool) (event module : text) (broadcasts : list (text * bool))
| DMain (requests beacons : list (list text * text)) (events : list (text * text * text))
        (self : list text) (answer : text)
| DClient (broadcasts : list (list text * text * text))
| DController (requests : list carms) (beacons : list (text * text))
| DTsRequest (reference : text) (arms : list (list text * text))
| DTsIndex (tmpl : string) (exports : list (text * text))
| DCode (t : target) (embedded : bool) (p : store)    (* a protocol on its own *)
| DDiagram (lines : list line)
| DKeys (assigned self : text) (of_self of_assigned : list (text * bool)).  (* fields merged; written as optional *)

Definition fs := fpath -> option doc.

Fixpoint peqb (a b : fpath) : bool :=
  match a, b with
  | [], [] => true
  | x :: a, y :: b => teqb x y && peqb a b
  | _, _ => false
  end.

Definition upd (f : fs) (p : fpath) (d : doc) : fs := fun q => if peqb p q then Some d else f q.

(** what makes a renderer fail *)
Inductive rerr :=
| ENoRequest      (* request.rs l.200-208 *)
| ENoResponse     (* request.rs l.92-98, l.210-220 *)
| ENoError        (* request.rs l.222-228 *)
| ENoConclusion   (* request.rs l.84-90 *)
| ENoEvent        (* event.rs l.85-93 *)
| ENoConfig       (* workflow/store.rs [get_config] *)
| ENoKey          (* config.rs l.236-250, render_identification.rs l.219, l.244 *)
| ENoManifest     (* render_cargo.rs l.74-88 *)
| EBadManifest    (* render_cargo.rs l.25-27 *)
| ENoDest.        (* workflow/render/render.rs l.48-53 *)

(** One file operation, relative to the destination folder.  [Put keep]: with
    [keep] an existing file is left alone and the content is not even computed
    (e.g. render_event_impl.rs l.50-53); otherwise helpers/fs.rs l.12-39 with
    [overwrite = true].  [Merge]: render_cargo.rs, render_package.rs. *)
Inductive op :=
| Put (keep : bool) (dest : res fpath rerr) (body : res doc rerr)
| Merge (file : text) (required : list (text * text)).

(** render_cargo.rs l.46-56: [Map::insert] *)
Fixpoint insert (deps : list (text * text)) (k v : text) : list (text * text) :=
  match deps with
  | [] => [(k, v)]
  | (k', v') :: deps => if teqb k' k then (k, v) :: deps else (k', v') :: insert deps k v
  end.

(** render_cargo.rs l.74-88 [get_target_file]: the folder itself, then its
    parents, the root directory excepted *)
Fixpoint manifest (f : fs) (file : text) (base : fpath) (k : nat) : option fpath :=
  match k with
  | 0 => None
  | S k' =>
    let p := firstn k base ++ [file] in
    if is_some (f p) then Some p else manifest f file base k'
  end.

Definition exec (base : fpath) (o : op) (f : fs) : fs * res unit rerr :=
  match o with
  | Put keep dest body =>
    match dest with
    | Ok q =>
      if keep && is_some (f (base ++ q)) then (f, Ok tt)
      else match body with
           | Ok d => (upd f (base ++ q) d, Ok tt)
           | Err e => (f, Err e)
           | Panic => (f, Panic)
           end
    | Err e => (f, Err e)
    | Panic => (f, Panic)
    end
  | Merge file required =>
    match manifest f file base (length base) with
    | None => (f, Err ENoManifest)
    | Some p =>
      match f p with
      | Some (DManifest rest deps) =>
        (upd f p (DManifest rest (fold_left (fun l kv => insert l (fst kv) (snd kv)) required deps)), Ok tt)
      | _ => (f, Err EBadManifest)
      end
    end
  end.

(** the [?] after every step *)
Fixpoint run (base : fpath) (ops : list op) (f : fs) : fs * res unit rerr :=
  match ops with
  | [] => (f, Ok tt)
  | o :: ops =>
    match exec base o f with
    | (f', Ok _) => run base ops f'
    | r => r
    end
  end.

(** ** Access to the workflow *)

Definition need {A : Type} (o : option A) (e : rerr) : res A rerr :=
  match o with Some a => Ok a | None => Err e end.

Fixpoint map_res {A B : Type} (f : A -> res B rerr) (l : list A) : res (list B) rerr :=
  match l with
  | [] => Ok []
  | a :: l => do b <- f a; do bs <- map_res f l; Ok (b :: bs)
  end.

(** request.rs l.200-228 *)
Definition get_request (r : wrequest) : res text rerr := need (rq_ref r) ENoRequest.
Definition get_response (r : wrequest) : res text rerr :=
  match rq_actions r with [] => Err ENoResponse | a :: _ => need (ac_resp a) ENoResponse end.
Definition get_err (r : wrequest) : res text rerr := need (rq_err r) ENoError.
(** request.rs l.84-98 *)
Definition get_conclusion (a : waction) : res text rerr := need (ac_concl a) ENoConclusion.
Definition get_action_response (a : waction) : res text rerr := need (ac_resp a) ENoResponse.
(** event.rs l.85-102 *)
Definition get_reference (e : wevent) : res text rerr := need (ev_ref e) ENoEvent.
Definition is_default (e : wevent) : bool :=
  match ev_ref e with Some r => default_event r | None => false end.

Definition several (r : wrequest) : bool := 1 <? length (rq_actions r).

(** config.rs l.236-250 *)
Definition get_config (s : wstore) : res wconfig rerr := need (w_config s) ENoConfig.
Definition get_self (s : wstore) : res text rerr := do c <- get_config s; need (cf_self c) ENoKey.
Definition get_assigned (s : wstore) : res text rerr := do c <- get_config s; need (cf_assigned c) ENoKey.

(** protocol/store.rs l.243-281 [get_struct_by_str_path]: the fields, with
    their mark of being optional *)
Fixpoint struct_at (p : store) (parent : nat) (q : list text) : option pstruct :=
  match q with
  | [] => None
  | [t] => find (fun x => teqb (s_name x) t && (s_parent x =? parent)) (structs p)
  | t :: q =>
    match find (fun g => teqb (g_name g) t && (g_parent g =? parent)) (groups p) with
    | Some g => struct_at p (g_id g) q
    | None => None
    end
  end.
Definition key_fields (p : store) (reference : text) : res (list (text * bool)) rerr :=
  match struct_at p 0 (split_dots reference) with
  | Some x => Ok (map (fun y => (f_name y, f_opt y)) (s_fields x))
  | None => Err ENoKey
  end.

Definition rs (name : text) : text := name ++ txt ".rs".
Definition ts (name : text) : text := name ++ txt ".ts".
Definition in_dir (dir : list string) (file : text) : fpath := map txt dir ++ [file].

(** ** The Rust producer: producer/rust/ *)

(** render_event_impl.rs l.97-99, render_request_response.rs l.156-158
    [get_broadcast_type_name] *)
Definition bc_type (b : wbroadcast) : text := txt "Broadcast" ++ plain_name (bc_ref b).
(** render_event_emitter.rs l.196-198, render_request_handler.rs l.143-146 *)
Definition bc_var (b : wbroadcast) : text := txt "broadcast_" ++ module_name (bc_ref b).

(** render_request_response.rs l.54-174 *)
Definition response_doc (r : wrequest) : res doc rerr :=
  do q <- get_request r;
  do body <-
    (if several r
     then do l <- map_res (fun a =>
              do c <- get_conclusion a;
              do x <- get_action_response a;
              Ok (c, rust_path x, map (fun b => (bc_type b, rust_path (bc_ref b), bc_opt b)) (ac_bcs a)))
              (rq_actions r);
          Ok (RMany l)
     else do x <- get_response r; Ok (ROne (rust_path x)));
  Ok (DResponse (rust_path q) (option_map rust_path (rq_err r)) body).
Definition op_response (r : wrequest) : op :=
  Put true (do q <- get_request r; Ok (in_dir ["responses"]%string (rs (module_name q)))) (response_doc r).

(** render_request_handler.rs l.100-227 *)
Definition handler_doc (r : wrequest) : res doc rerr :=
  do q <- get_request r;
  if several r
  then do l <- map_res (fun a =>
           do c <- get_conclusion a; Ok (c, map (fun b => (bc_var b, bc_opt b)) (ac_bcs a)))
           (rq_actions r);
       Ok (DHandler (rust_path q) (module_name q) (Some l))
  else Ok (DHandler (rust_path q) (module_name q) None).
Definition op_handler (r : wrequest) : op :=
  Put false (do q <- get_request r; Ok (in_dir ["implementation"; "handlers"]%string (rs (module_name q))))
      (handler_doc r).

(** render_request_responses_mod.rs l.20-46, render_request_handlers_mod.rs l.20-83 *)
Definition request_modules (l : list wrequest) : res (list text) rerr :=
  map_res (fun r => do q <- get_request r; Ok (module_name q)) l.
Definition op_responses_mod (l : list wrequest) : op :=
  Put false (Ok (in_dir ["responses"]%string (txt "mod.rs")))
      (do ms <- request_modules l; Ok (DMods "responses" ms)).
Definition op_handlers_mod (l : list wrequest) : op :=
  Put false (Ok (in_dir ["implementation"; "handlers"]%string (txt "mod.rs")))
      (do ms <- request_modules l; Ok (DMods "handlers" ms)).

(** render_event_impl.rs l.48-117 *)
Definition op_event_impl (e : wevent) : op :=
  Put true (do q <- get_reference e; Ok (in_dir ["events"]%string (rs (module_name q))))
      (do q <- get_reference e;
       Ok (DEvent (default_event q) (rust_path q)
             (map (fun b => (bc_type b, rust_path (bc_ref b), bc_opt b)) (ev_list e)))).
(** render_event_emitter.rs l.117-216 *)
Definition op_event_emitter (e : wevent) : op :=
  Put false (do q <- get_reference e; Ok (in_dir ["implementation"; "emitters"]%string (rs (module_name q))))
      (do q <- get_reference e;
       Ok (DEmitter (is_default e) (rust_path q) (module_name q)
             (map (fun b => (bc_var b, bc_opt b)) (ev_list e)))).

(** render_beacon_impl.rs l.34-61, render_beacon_emitter.rs l.50-77 *)
Definition op_beacon_impl (b : wbroadcast) : op :=
  Put true (Ok (in_dir ["beacons"]%string (rs (module_name (bc_ref b)))))
      (Ok (DFill "beacon" [rust_path (bc_ref b)])).
Definition op_beacon_emitter (b : wbroadcast) : op :=
  Put false (Ok (in_dir ["implementation"; "beacons"]%string (rs (module_name (bc_ref b)))))
      (Ok (DFill "beacon emitter" [rust_path (bc_ref b); module_name (bc_ref b)])).
(** render_beacon_emitters_mod.rs l.45-72, render_beacon_impl_mod.rs l.25-52 *)
Definition op_beacon_emitters_mod (l : list wbroadcast) : op :=
  Put false (Ok (in_dir ["implementation"; "beacons"]%string (txt "mod.rs")))
      (Ok (DMods "beacon emitters" (map (fun b => module_name (bc_ref b)) l))).
Definition op_beacon_impl_mod (l : list wbroadcast) : op :=
  Put false (Ok (in_dir ["beacons"]%string (txt "mod.rs")))
      (Ok (DMods "beacons" (map (fun b => module_name (bc_ref b)) l))).

(** the modules every producer has: render_event_impl_mod.rs l.22-30,
    render_event_emitters_mod.rs l.8-12 *)
Definition default_modules : list text :=
  map txt ["connected"; "disconnected"; "error"; "ready"; "shutdown"]%string.
Definition own_events (l : list wevent) : list wevent := filter (fun e => negb (is_default e)) l.
Definition event_modules (l : list wevent) : res (list text) rerr :=
  map_res (fun e => do q <- get_reference e; Ok (module_name q)) (own_events l).
(** render_event_impl_mod.rs l.20-56, render_event_emitters_mod.rs l.68-97 *)
Definition op_event_impl_mod (l : list wevent) : op :=
  Put false (Ok (in_dir ["events"]%string (txt "mod.rs")))
      (do ms <- event_modules l; Ok (DMods "events" (default_modules ++ ms))).
Definition op_event_emitters_mod (l : list wevent) : op :=
  Put false (Ok (in_dir ["implementation"; "emitters"]%string (txt "mod.rs")))
      (do ms <- event_modules l; Ok (DMods "emitters" (ms ++ default_modules))).

(** render_static.rs l.52-186 *)
Definition has_event (l : list wevent) (name : string) : bool :=
  existsb (fun e => oteqb (ev_ref e) (Some (txt name))) l.
Definition static (keep : bool) (dir : list string) (file : string) : op :=
  Put keep (Ok (in_dir dir (txt file))) (Ok (DStatic (String.concat "/" (dir ++ [file])))).
Definition ops_static (l : list wevent) : list op :=
  (if has_event l "connected" then []
   else [static true ["events"] "connected.rs"; static false ["implementation"; "emitters"] "connected.rs"])%string ++
  (if has_event l "disconnected" then []
   else [static true ["events"] "disconnected.rs"; static false ["implementation"; "emitters"] "disconnected.rs"])%string ++
  [static true ["events"] "error.rs"; static true ["events"] "ready.rs"; static true ["events"] "shutdown.rs";
   static false ["implementation"; "emitters"] "error.rs";
   static false ["implementation"; "emitters"] "ready.rs";
   static false ["implementation"; "emitters"] "shutdown.rs"]%string ++
  [Put false (Ok [txt "mod.rs"]) (Ok (DMods "mod" (map txt ["context"; "implementation"]%string)));
   static false ["implementation"; "scope"]%string "mod.rs"; static true [] "context.rs"].

(** render_identification.rs l.178-262 *)
Definition op_identification (s : wstore) (p : store) : op :=
  Put false (Ok (in_dir ["implementation"; "consumer"]%string (txt "identification.rs")))
      (do a <- get_assigned s; do k <- get_self s;
       do fk <- key_fields p k; do fa <- key_fields p a;
       Ok (DKeys (rust_path a) (rust_path k) fk fa)).
(** producer/rust/render_consumer.rs l.116-143, l.9 *)
Definition op_producer_consumer (s : wstore) : op :=
  Put false (Ok (in_dir ["implementation"; "consumer"]%string (txt "mod.rs")))
      (do a <- get_assigned s; do k <- get_self s;
       Ok (DMods "consumer" [txt "identification"])).
(** render_protocol.rs l.20-43, in both Rust renderers *)
Definition op_protocol (p : store) : op :=
  Put false (Ok (in_dir ["implementation"; "protocol"]%string (txt "mod.rs"))) (Ok (DProtocol p)).

(** producer/rust/render_mod.rs l.1023-1228.  The file also declares the modules
    of l.9-20 ([main_modules]). *)
Definition main_doc (s : wstore) : res doc rerr :=
  do rq <- map_res (fun r => do q <- get_request r; Ok (split_dots q, module_name q)) (w_requests s);
  do ev <- map_res (fun e => do q <- get_reference e; Ok (plain_name q, module_name q, rust_path q))
                   (own_events (w_events s));
  do k <- get_self s;
  Ok (DMain rq (map (fun b => (split_dots (bc_ref b), module_name (bc_ref b))) (w_beacons s)) ev
            (split_dots k) (rust_path (service "SelfKeyResponse"))).
Definition op_main (s : wstore) : op :=
  Put false (Ok (in_dir ["implementation"]%string (txt "mod.rs"))) (main_doc s).

(** static/required.toml *)
Definition producer_deps : list (text * text) :=
  map (fun kv => (txt (fst kv), txt (snd kv)))
    [("bytes", "1.1.0"); ("clibri", "0.1.7"); ("futures", "0.3.14"); ("log", "0.4.14"); ("regex", "1");
     ("thiserror", "1.0.26"); ("tokio", "1.5.0"); ("tokio-util", "0.6.7"); ("uuid", "0.8.1")]%string.

(** producer/rust/render.rs l.34-67 *)
Definition producer_rust (s : wstore) (p : store) : list op :=
  flat_map (fun r => [op_response r; op_handler r]) (w_requests s) ++
  [op_responses_mod (w_requests s); op_handlers_mod (w_requests s)] ++
  flat_map (fun e => [op_event_impl e; op_event_emitter e]) (w_events s) ++
  flat_map (fun b => [op_beacon_impl b; op_beacon_emitter b]) (w_beacons s) ++
  [op_beacon_emitters_mod (w_beacons s); op_beacon_impl_mod (w_beacons s);
   op_event_impl_mod (w_events s); op_event_emitters_mod (w_events s)] ++
  ops_static (w_events s) ++
  [op_protocol p; op_identification s p; op_producer_consumer s; op_main s;
   Merge (txt "Cargo.toml") producer_deps].

(** ** The Rust consumer: consumer/rust/ *)

(** consumer/rust/render.rs l.19-46, consumer/typescript/render_consumer.rs
    l.343-374 [get_all_broadcasts] *)
Definition add_new (l : list wbroadcast) (b : wbroadcast) : list wbroadcast :=
  if existsb (fun x => teqb (bc_ref x) (bc_ref b)) l then l else l ++ [b].
Definition all_broadcasts (s : wstore) : list wbroadcast :=
  fold_left add_new
    (flat_map (fun r => flat_map ac_bcs (rq_actions r)) (w_requests s) ++ flat_map ev_list (w_events s)) [].

(** render_broadcast.rs l.33-60, render_broadcast_mod.rs l.25-53 *)
Definition op_broadcast (b : wbroadcast) : op :=
  Put true (Ok (in_dir ["broadcasts"]%string (rs (module_name (bc_ref b)))))
      (Ok (DFill "broadcast" [rust_path (bc_ref b)])).
Definition op_broadcast_mod (l : list wbroadcast) : op :=
  Put false (Ok (in_dir ["broadcasts"]%string (txt "mod.rs")))
      (Ok (DMods "broadcasts" (map (fun b => module_name (bc_ref b)) l))).

(** render_controller.rs l.167-212 (and l.117-151: the same variants): the arms
    of the match in a request's method *)
Definition request_arms (r : wrequest) : res carms rerr :=
  do q <- get_request r;
  do arms <- map_res (fun a =>
      do x <- get_action_response a;
      Ok (split_dots x, match ac_concl a with Some c => c | None => txt "Response" end)) (rq_actions r);
  do e <- get_err r;
  Ok (mkArms (module_name q) (plain_name q ++ txt "Response") (rust_path q)
             (arms ++ [(split_dots e, txt "Err")])).
(** render_controller.rs l.103-264; l.152-165: the beacons' methods *)
Definition op_controller (s : wstore) : op :=
  Put false (Ok (in_dir ["implementation"; "consumer"]%string (txt "controller.rs")))
      (do rq <- map_res request_arms (w_requests s);
       Ok (DController rq
             (map (fun b => (txt "beacon_" ++ module_name (bc_ref b), rust_path (bc_ref b))) (w_beacons s)))).
(** consumer/rust/render_consumer.rs l.731-815.  The file also declares the
    modules of l.11-14 ([client_modules]). *)
Definition op_client (l : list wbroadcast) : op :=
  Put false (Ok (in_dir ["implementation"; "consumer"]%string (txt "mod.rs")))
      (Ok (DClient (map (fun b => (split_dots (bc_ref b), plain_name (bc_ref b), module_name (bc_ref b))) l))).
(** render_options.rs l.45-68 *)
Definition op_options (s : wstore) : op :=
  Put false (Ok (in_dir ["implementation"; "consumer"]%string (txt "options.rs")))
      (do k <- get_self s; Ok (DFill "options" [rust_path k])).
(** consumer/rust/render_static.rs l.50-148, static/events/mod.rs,
    static/implementation/mod.rs, static/mod.rs *)
Definition consumer_events : list text :=
  map txt ["connected"; "disconnected"; "error"; "reconnect"; "shutdown"]%string.
Definition ops_consumer_static : list op :=
  [static true ["events"] "connected.rs"; static true ["events"] "disconnected.rs";
   static true ["events"] "error.rs"; static true ["events"] "reconnect.rs";
   static true ["events"] "shutdown.rs"]%string ++
  [Put false (Ok (in_dir ["events"]%string (txt "mod.rs"))) (Ok (DMods "events" consumer_events));
   static false ["implementation"; "consumer"]%string "api.rs";
   static false ["implementation"; "consumer"]%string "error.rs";
   Put false (Ok (in_dir ["implementation"]%string (txt "mod.rs")))
       (Ok (DMods "implementation" (map txt ["consumer"; "protocol"]%string)));
   Put false (Ok [txt "mod.rs"])
       (Ok (DMods "mod" (map txt ["broadcasts"; "context"; "events"; "implementation"]%string)));
   static true [] "context.rs"].

(** static/required.toml *)
Definition consumer_deps : list (text * text) :=
  map (fun kv => (txt (fst kv), txt (snd kv)))
    [("bytes", "1.1.0"); ("chrono", "0.4.19"); ("clibri", "0.1.7"); ("futures", "0.3.14"); ("log", "0.4.14");
     ("regex", "1"); ("thiserror", "1.0.30"); ("tokio", "1.14.0"); ("tokio-util", "0.6.9"); ("uuid", "0.8.2")]%string.

(** consumer/rust/render.rs l.54-75 *)
Definition consumer_rust (s : wstore) (p : store) : list op :=
  let bs := all_broadcasts s in
  map op_broadcast bs ++
  [op_broadcast_mod bs; op_controller s; op_client bs; op_options s; op_protocol p] ++
  ops_consumer_static ++
  [Merge (txt "Cargo.toml") consumer_deps].

(** ** The TypeScript producer: producer/typescript/ *)

(** file names keep the dots, e.g. render_request_handler.rs l.308 *)
Definition ts_file (reference : text) : text := ts (lower reference).
(** e.g. render_request_handlers_mod.rs l.67: the exported handler *)
Definition ts_handler (reference : text) : text := first_lower (plain_name reference) ++ txt "Handler".

(** render_request_response.rs l.38-65 *)
Definition op_ts_response (r : wrequest) : op :=
  Put true (do q <- get_request r; Ok (in_dir ["responses"]%string (ts_file q)))
      (do q <- get_request r; Ok (DFill "response" [q; lower q])).
(** render_request_handler.rs l.175-310 *)
Definition op_ts_handler (r : wrequest) : op :=
  Put false (do q <- get_request r; Ok (in_dir ["implementation"; "responses"]%string (ts_file q)))
      (do q <- get_request r;
       if several r
       then do l <- map_res (fun a => do c <- match ac_bcs a with [] => Ok [] | _ => get_conclusion a end;
                                      do x <- get_action_response a;
                                      Ok (c :: x :: map bc_ref (ac_bcs a))) (rq_actions r);
            do e <- get_err r;
            Ok (DFill "handler with conclusions" (q :: lower q :: e :: concat l))
       else do x <- get_response r; do e <- get_err r; Ok (DFill "handler" [q; lower q; x; e])).
(** render_request_handlers_mod.rs l.60-89 *)
Definition op_ts_handlers_mod (l : list wrequest) : op :=
  Put false (Ok (in_dir ["implementation"; "responses"]%string (txt "index.ts")))
      (do ms <- map_res (fun r => do q <- get_request r; Ok (ts_handler q, lower q)) l;
       Ok (DTsIndex "responses" ms)).
(** render_event_impl.rs l.85-128, render_event_emitter.rs l.139-247 *)
Definition op_ts_event_impl (e : wevent) : op :=
  Put true (do q <- get_reference e; Ok (in_dir ["events"]%string (ts_file q)))
      (do q <- get_reference e;
       Ok (DEvent (default_event q) q (map (fun b => ([], bc_ref b, bc_opt b)) (ev_list e)))).
Definition op_ts_event_emitter (e : wevent) : op :=
  Put false (do q <- get_reference e; Ok (in_dir ["implementation"; "events"]%string (ts_file q)))
      (do q <- get_reference e;
       Ok (DEmitter (default_event q) q (lower q) (map (fun b => (bc_ref b, bc_opt b)) (ev_list e)))).
(** render_event_emitters_mod.rs l.65-97 *)
Definition op_ts_event_emitters_mod (l : list wevent) : op :=
  Put false (Ok (in_dir ["implementation"; "events"]%string (txt "index.ts")))
      (do ms <- map_res (fun e => do q <- get_reference e; Ok (ts_handler q, lower q)) (own_events l);
       Ok (DTsIndex "events" ms)).
(** render_beacon_impl.rs l.37-61, render_beacon_emitter.rs l.57-78,
    render_beacon_emitters_mod.rs l.31-59 *)
Definition op_ts_beacon_impl (b : wbroadcast) : op :=
  Put true (Ok (in_dir ["beacons"]%string (ts_file (bc_ref b)))) (Ok (DFill "beacon" [bc_ref b])).
Definition op_ts_beacon_emitter (b : wbroadcast) : op :=
  Put false (Ok (in_dir ["implementation"; "beacons"]%string (ts_file (bc_ref b))))
      (Ok (DFill "beacon emitter" [bc_ref b; lower (bc_ref b)])).
Definition op_ts_beacon_emitters_mod (l : list wbroadcast) : op :=
  Put false (Ok (in_dir ["implementation"; "beacons"]%string (txt "index.ts")))
      (Ok (DTsIndex "beacons" (map (fun b => (ts_handler (bc_ref b), lower (bc_ref b))) l))).
(** producer/typescript/render_protocol.rs l.20-43 *)
Definition op_ts_protocol (p : store) : op :=
  Put false (Ok (in_dir ["implementation"; "protocol"]%string (txt "index.ts"))) (Ok (DProtocol p)).
(** render_identification.rs l.113-175; every field is merged in the same way,
    by its presence *)
Definition op_ts_identification (s : wstore) (p : store) : op :=
  Put false (Ok (in_dir ["implementation"; "consumer"]%string (txt "identification.ts")))
      (do a <- get_assigned s; do k <- get_self s;
       do fk <- key_fields p k; do fa <- key_fields p a;
       Ok (DKeys a k (map (fun x => (fst x, true)) fk) (map (fun x => (fst x, true)) fa))).
(** render_static.rs l.57-188 *)
Definition ops_ts_static (l : list wevent) : list op :=
  (if has_event l "connected" then []
   else [static true ["events"] "connected.ts"; static false ["implementation"; "events"] "connected.ts"])%string ++
  (if has_event l "disconnected" then []
   else [static true ["events"] "disconnected.ts"; static false ["implementation"; "events"] "disconnected.ts"])%string ++
  [static true ["events"] "error.ts"; static true ["events"] "ready.ts"; static true ["events"] "shutdown.ts";
   static false ["implementation"; "consumer"] "index.ts"; static false ["implementation"; "consumer"] "filter.ts";
   static false ["implementation"; "scope"] "index.ts";
   static false ["implementation"; "events"] "error.ts";
   static false ["implementation"; "events"] "ready.ts";
   static false ["implementation"; "events"] "shutdown.ts"]%string ++
  [static false [] "index.ts"; static true [] "context.ts"].
(** render_mod.rs l.621-754 *)
Definition op_ts_main (s : wstore) : op :=
  Put false (Ok (in_dir ["implementation"]%string (txt "index.ts")))
      (do rq <- map_res (fun r => do q <- get_request r; Ok (split_dots q, ts_handler q)) (w_requests s);
       do ev <- map_res (fun e => do q <- get_reference e; Ok (first_lower (plain_name q), ts_handler q, q))
                        (own_events (w_events s));
       do k <- get_self s;
       Ok (DMain rq (map (fun b => (split_dots (bc_ref b), ts_handler (bc_ref b))) (w_beacons s)) ev
                 (split_dots k) [])).
(** static/required.json of both TypeScript renderers *)
Definition ts_deps : list (text * text) := [(txt "clibri", txt "0.1.2")].

(** producer/typescript/render.rs l.31-59 *)
Definition producer_ts (s : wstore) (p : store) : list op :=
  flat_map (fun r => [op_ts_response r; op_ts_handler r]) (w_requests s) ++
  [op_ts_handlers_mod (w_requests s)] ++
  flat_map (fun e => [op_ts_event_impl e; op_ts_event_emitter e]) (w_events s) ++
  [op_ts_event_emitters_mod (w_events s)] ++
  flat_map (fun b => [op_ts_beacon_impl b; op_ts_beacon_emitter b]) (w_beacons s) ++
  [op_ts_beacon_emitters_mod (w_beacons s); op_ts_protocol p; op_ts_identification s p] ++
  ops_ts_static (w_events s) ++
  [op_ts_main s; Merge (txt "package.json") ts_deps].

(** ** The TypeScript consumer: consumer/typescript/ *)

(** render_request.rs l.93-373; l.269-350: the tests of the answer's handler, in
    order.  l.213-267 fail in the same cases. *)
Definition op_ts_request (r : wrequest) : op :=
  Put false (do q <- get_request r; Ok (in_dir ["requests"]%string (ts_file q)))
      (do q <- get_request r;
       do e <- get_err r;
       do arms <-
         (if several r
          then map_res (fun a => do x <- get_action_response a; do c <- get_conclusion a;
                                 Ok (split_dots x, lower c)) (rq_actions r)
          else do x <- get_response r; Ok [(split_dots x, txt "response")]);
       Ok (DTsRequest q (arms ++ [(split_dots e, txt "err")]))).
(** render_beacon.rs l.137-172 *)
Definition op_ts_beacon (b : wbroadcast) : op :=
  Put false (Ok (in_dir ["beacons"]%string (ts_file (bc_ref b)))) (Ok (DFill "beacon" [bc_ref b])).
(** render_consumer.rs l.286-449 *)
Definition op_ts_consumer (s : wstore) : op :=
  Put false (Ok [txt "index.ts"])
      (do k <- get_self s;
       do rq <- map_res (fun r => do q <- get_request r; Ok (plain_name q, lower q)) (w_requests s);
       Ok (DTsIndex "consumer"
             (rq ++ map (fun b => (txt "Beacon" ++ plain_name (bc_ref b), lower (bc_ref b))) (w_beacons s) ++
              map (fun b => (plain_name (bc_ref b), bc_ref b)) (all_broadcasts s)))).
(** consumer/typescript/render.rs l.22-42; render_interfaces_request.rs l.29-47,
    render_options.rs l.49-57, render_protocol.rs l.20-43 *)
Definition consumer_ts (s : wstore) (p : store) : list op :=
  map op_ts_request (w_requests s) ++ map op_ts_beacon (w_beacons s) ++
  [op_ts_consumer s; static false ["interfaces"]%string "request.ts"; static false [] "options.ts";
   Put false (Ok (in_dir ["protocol"]%string (txt "protocol.ts"))) (Ok (DProtocol p));
   Merge (txt "package.json") ts_deps].

(** ** All targets: workflow/render/render.rs l.40-119 *)

Definition target_dir (t : target) : text := match t with TRust => txt "rust" | TTypeScript => txt "typescript" end.

(** the loop over the targets of one side, e.g. l.56-84 *)
Fixpoint run_targets (dest : fpath) (many : bool) (plan : target -> list op) (l : list target) (f : fs)
  : fs * res unit rerr :=
  match l with
  | [] => (f, Ok tt)
  | t :: l =>
    match run (if many then dest ++ [target_dir t] else dest) (plan t) f with
    | (f', Ok _) => run_targets dest many plan l f'
    | r => r
    end
  end.

Definition render (cd pd : option fpath) (s : wstore) (p : store) (f : fs) : fs * res unit rerr :=
  match w_config s with
  | None => (f, Err ENoConfig)
  | Some c =>
    let cs := cf_consumer c in
    let ps := cf_producer c in
    if (negb (is_some cd) && nonempty cs) || (negb (is_some pd) && nonempty ps) then (f, Err ENoDest)
    else
      let r1 := match cd with
                | None => (f, Ok tt)
                | Some d =>
                  run_targets d (1 <? length cs)
                    (fun t => match t with TRust => consumer_rust s p | TTypeScript => consumer_ts s p end) cs f
                end in
      match r1 with
      | (f1, Ok _) =>
        match pd with
        | None => (f1, Ok tt)
        | Some d =>
          run_targets d (1 <? length ps)
            (fun t => match t with TRust => producer_rust s p | TTypeScript => producer_ts s p end) ps f1
        end
      | r => r
      end
  end.

(** ** The diagram: puml/ *)

(** render_request.rs l.25-73 *)
Definition puml_request (r : wrequest) : res (list line) rerr :=
  do q <- get_request r;
  do e <- get_err r;
  do l <-
    (if several r
     then map_res (fun a => do c <- get_conclusion a; do x <- get_action_response a;
                            Ok (LSection c :: LArrow "Producer" "->" "Consumer" x ::
                                map (fun b => LArrow "Producer" (if bc_opt b then "-->" else "->") "Consumers" (bc_ref b))
                                    (ac_bcs a))) (rq_actions r)
     else do x <- get_response r; Ok [[LArrow "Producer" "->" "Consumer" x]]);
  Ok (LGroup (plain_name q) :: LArrow "Consumer" "->" "Producer" q :: LArrow "Producer" "-->x" "Consumer" e ::
      concat l ++ [LEnd]).
(** render_event.rs l.23-43 *)
Definition puml_event (e : wevent) : res (list line) rerr :=
  do q <- get_reference e;
  Ok (LGroup q :: LArrow "Producer" "->" "Producer" q ::
      map (fun b => LArrow "Producer" "-->" "Consumer" (bc_ref b)) (ev_list e) ++ [LEnd]).
(** render_beacon.rs l.24-41 *)
Definition puml_beacons (l : list wbroadcast) : list line :=
  LGroup (txt "Beacons") :: LArrow "Consumer" "->" "Producer" (txt "Connected Event") ::
  LArrow "Consumer" "->" "Producer" (txt "Disconnected Event") ::
  map (fun b => LArrow "Consumer" "-->" "Producer" (bc_ref b)) l ++ [LEnd].
(** mod.rs l.34-62 *)
Definition puml (s : wstore) : res doc rerr :=
  do rq <- map_res puml_request (w_requests s);
  do ev <- map_res puml_event (w_events s);
  Ok (DDiagram (concat rq ++ concat ev ++ puml_beacons (w_beacons s))).

(** ** Reading generated Rust files *)

(** producer/rust/render_mod.rs l.9-20: module and, for the ones with a
    [path] attribute, where its file is *)
Definition main_modules : list (text * option fpath) :=
  map (fun m => (txt m, None)) ["consumer"; "emitters"; "handlers"; "protocol"; "scope"]%string ++
  [(txt "beacons_callers", Some (in_dir ["implementation"; "beacons"]%string (txt "mod.rs")));
   (txt "beacons", Some (in_dir ["beacons"]%string (txt "mod.rs")));
   (txt "events", Some (in_dir ["events"]%string (txt "mod.rs")));
   (txt "responses", Some (in_dir ["responses"]%string (txt "mod.rs")))].
(** consumer/rust/render_consumer.rs l.11-14 *)
Definition client_modules : list (text * option fpath) :=
  map (fun m => (txt m, None)) ["api"; "controller"; "error"; "options"]%string.

(** the [pub mod name;] lines of a file *)
Definition declares (d : doc) : list (text * option fpath) :=
  match d with
  | DMods _ ms => map (fun m => (m, None)) ms
  | DMain _ _ _ _ _ => main_modules
  | DClient _ => client_modules
  | _ => []
  end.

(** the names a file declares, one list for each scope *)
Definition scopes (d : doc) : list (list text) :=
  match d with
  | DMods _ ms => [ms]
  (* render_request_response.rs l.11-22, l.82-158 *)
  | DResponse _ _ (RMany cs) =>
    [map (fun x => fst (fst x)) cs; flat_map (fun x => map (fun b => fst (fst b)) (snd x)) cs]
  (* render_event_impl.rs l.97-117 *)
  | DEvent _ _ bs => [map (fun b => fst (fst b)) bs]
  (* producer/rust/render_mod.rs l.9-20, l.82-84, l.98-100 *)
  | DMain _ _ ev _ _ => [map fst main_modules; map (fun x => fst (fst x)) ev; map (fun x => snd (fst x)) ev]
  (* consumer/rust/render_consumer.rs l.11-14, l.56-61 *)
  | DClient bs =>
    [map fst client_modules;
     map txt ["Connected"; "Disconnected"; "Shutdown"; "Error"]%string ++ map (fun x => snd (fst x)) bs]
  (* render_controller.rs l.24-37, l.117-151, l.159-163 *)
  | DController rq bs =>
    (map txt ["new"; "shutdown"; "get_shutdown_token"]%string ++ map fst bs ++ map ca_method rq) ::
    map ca_type rq :: map (fun z => map snd (ca_arms z)) rq
  | _ => []
  end.
