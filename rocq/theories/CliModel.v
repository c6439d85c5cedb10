(** Model of the command line: cli/src/main.rs, ctrlargs.rs, arguments/.

    [locate] says which path an argument stands for ([pwd.join(arg)], l.198 of
    args_option_files.rs); [content] is the text of a file, if it has one
    (UTF-8).  Both are arbitrary.
    Folders the renderers make are not recorded, and writing a file succeeds
    unless a folder is in its place.  Messages are reduced to what caused them. *)
From Coq Require Import String Ascii NArith List Arith Lia Bool.
From Verif Require Import Bytes ProtoModel WfModel RenderModel.
Import ListNotations.
Close Scope string_scope.
Open Scope list_scope.
Open Scope nat_scope.

(** ** Arguments *)

(** args_option_help.rs l.6-9, args_option_embedded.rs l.6-10,
    args_option_overwrite.rs l.6-10 *)
Definition help_keys : list text := map txt ["--help"; "-h"]%string.
Definition embedded_keys : list text := map txt ["--embedded"; "--em"; "-e"]%string.
Definition overwrite_keys : list text := map txt ["--overwrite"; "--ow"; "-o"]%string.

(** args_option_files.rs l.18-36 *)
Inductive fopt := OSource | OWorkflow | ORust | OTypeScript | OConsumer | OProducer | OPuml.
Definition file_keys (o : fopt) : list text :=
  map txt match o with
          | OSource => ["--source"; "--src"; "-s"]
          | OWorkflow => ["--workflow"; "-wf"]
          | ORust => ["--destination-rs"; "--dest-rs"; "-rs"]
          | OTypeScript => ["--destination-ts"; "--dest-ts"; "-ts"]
          | OConsumer => ["--consumer-dest"; "-cd"]
          | OProducer => ["--producer-dest"; "-pd"]
          | OPuml => ["--puml"; "-d"]
          end%string.
(** l.414-422 *)
Definition file_opts : list fopt := [OSource; OWorkflow; ORust; OTypeScript; OConsumer; OProducer; OPuml].

Definition is_key (ks : list text) (a : text) : bool := existsb (teqb a) ks.

(** [args.iter().position(..)] *)
Fixpoint position (ks : list text) (args : list text) : option nat :=
  match args with
  | [] => None
  | a :: args => if is_key ks a then Some 0 else option_map S (position ks args)
  end.

(** args_option_help.rs l.17-21, args_option_overwrite.rs l.18-22,
    args_option_embedded.rs l.18-22 *)
Definition flag (ks : list text) (args : list text) : bool := existsb (is_key ks) args.

(** args_option_files.rs l.193-254 *)
Definition value_of (o : fopt) (args : list text) : option text :=
  match position (file_keys o) args with
  | Some i => nth_error args (S i)
  | None => None
  end.

(** [Vec::remove] *)
Definition remove_at (i : nat) (args : list text) : list text := firstn i args ++ skipn (S i) args.

(** args_option_help.rs l.58-65 and the like in the other two *)
Definition clean_flag (ks : list text) (args : list text) : list text :=
  match position ks args with Some i => remove_at i args | None => args end.
(** args_option_files.rs l.424-437 *)
Definition clean_value (ks : list text) (args : list text) : list text :=
  match position ks args with
  | Some i =>
    match nth_error args (S i) with
    | Some _ => remove_at i (remove_at (S i) args)
    | None => remove_at i args
    end
  | None => args
  end.
(** ctrlargs.rs l.178-189, args_option_files.rs l.412-441 *)
Definition unknown_args (args : list text) : list text :=
  fold_left (fun args o => clean_value (file_keys o) args) file_opts
    (clean_flag overwrite_keys (clean_flag embedded_keys (clean_flag help_keys args))).

(** ** Configuration *)

Record disk := mkDisk { files : fs; folders : fpath -> bool }.

(** [Path::exists] *)
Definition present (d : disk) (p : fpath) : bool := is_some (files d p) || folders d p.

Inductive cerr :=
| CMissing (o : fopt)    (* l.63-83 *)
| CExists (o : fopt)     (* l.85-103, l.137-145 *)
| CNoFolder (o : fopt).  (* l.105-135 *)

(** l.38-47 *)
Record options := mkOptions {
  o_src : option fpath; o_workflow : option fpath; o_rust : option fpath; o_ts : option fpath;
  o_consumer : option fpath; o_producer : option fpath; o_uml : option fpath; o_errs : list cerr
}.

(** l.63-83 [set_src], [set_workflow] *)
Definition set_source (d : disk) (o : fopt) (v : option fpath) : option fpath * list cerr :=
  match v with
  | None => (None, [])
  | Some p => if present d p then (Some p, []) else (None, [CMissing o])
  end.
(** l.85-103, l.137-145 [set_dest_rs], [set_dest_ts], [set_dest_uml] *)
Definition set_file (d : disk) (overwrite : bool) (o : fopt) (v : option fpath) : option fpath * list cerr :=
  match v with
  | None => (None, [])
  | Some p => if negb overwrite && present d p then (None, [CExists o]) else (Some p, [])
  end.
(** [fs::create_dir]: the parent has to be there *)
Definition create_dir (d : disk) (p : fpath) : option disk :=
  if folders d (removelast p) then Some (mkDisk (files d) (fun q => peqb p q || folders d q)) else None.
(** l.105-135 [set_dest_consumer], [set_dest_producer] *)
Definition set_folder (d : disk) (o : fopt) (v : option fpath) : disk * option fpath * list cerr :=
  match v with
  | None => (d, None, [])
  | Some p =>
    if present d p then (d, Some p, [])
    else match create_dir d p with
         | Some d' => (d', Some p, [])
         | None => (d, None, [CNoFolder o])
         end
  end.

(** l.187-256, called from ctrlargs.rs l.64-104 *)
Definition configure (locate : text -> fpath) (args : list text) (d : disk) : options * disk :=
  let at_ o := option_map locate (value_of o args) in
  let overwrite := flag overwrite_keys args in
  let '(src, e1) := set_source d OSource (at_ OSource) in
  let '(wf, e2) := set_source d OWorkflow (at_ OWorkflow) in
  let '(rs, e3) := set_file d overwrite ORust (at_ ORust) in
  let '(ts, e4) := set_file d overwrite OTypeScript (at_ OTypeScript) in
  let '(d1, cd, e5) := set_folder d OConsumer (at_ OConsumer) in
  let '(d2, pd, e6) := set_folder d1 OProducer (at_ OProducer) in
  let '(uml, e7) := set_file d2 overwrite OPuml (at_ OPuml) in
  (mkOptions src wf rs ts cd pd uml (e1 ++ e2 ++ e3 ++ e4 ++ e5 ++ e6 ++ e7), d2).

(** ** Generating *)

Inductive aerr :=
| ANoSource          (* l.291-295, l.373-375 *)
| ASource            (* l.371: the protocol is not read or not accepted *)
| ANoWorkflow        (* l.308-310 *)
| AWorkflow          (* l.332-334: the workflow is not read or not accepted *)
| ARender (e : rerr) (* l.322, l.329 *)
| AExists            (* l.338-339, l.354-355 *)
| ARemove.           (* l.342-346, l.358-362; helpers/fs.rs l.14-16 *)

(** how [action] ends *)
Inductive ending :=
| Done (e : option aerr)   (* [Ok], [Err] *)
| Stopped                  (* [stop!] in the protocol's parser *)
| Panicked
| Running.                 (* not finished within the given number of tokens *)

(** l.337-352, l.353-368, helpers/fs.rs l.12-39 *)
Definition put_file (overwrite : bool) (p : fpath) (c : doc) (d : disk) : disk * ending :=
  if present d p && negb overwrite then (d, Done (Some AExists))
  else if folders d p && negb (is_some (files d p)) then (d, Done (Some ARemove))
  else (mkDisk (upd (files d) p c) (folders d), Done None).

(** the [?] between two steps *)
Definition andthen (x : disk * ending) (k : disk -> disk * ending) : disk * ending :=
  match x with
  | (d, Done None) => k d
  | _ => x
  end.

Definition put_opt (overwrite : bool) (p : option fpath) (c : doc) (d : disk) : disk * ending :=
  match p with Some p => put_file overwrite p c d | None => (d, Done None) end.

(** l.337-369: the protocol on its own *)
Definition codes (overwrite embedded : bool) (o : options) (p : store) (d : disk) : disk * ending :=
  andthen (put_opt overwrite (o_rust o) (DCode TRust embedded p) d)
          (put_opt overwrite (o_ts o) (DCode TTypeScript embedded p)).

(** l.317-330 *)
Definition project (o : options) (s : wstore) (p : store) (d : disk) : disk * ending :=
  match o_uml o with
  | Some q =>
    match puml s with
    | Ok c => put_file true q c d
    | Err e => (d, Done (Some (ARender e)))
    | Panic => (d, Panicked)
    end
  | None =>
    match render (o_consumer o) (o_producer o) s p (files d) with
    | (f, Ok _) => (mkDisk f (folders d), Done None)
    | (f, Err e) => (mkDisk f (folders d), Done (Some (ARender e)))
    | (f, Panic) => (mkDisk f (folders d), Panicked)
    end
  end.

(** protocol/parser.rs l.396-408, workflow/parser.rs l.178-190 [get_content] *)
Definition read (content : doc -> option text) (d : disk) (p : fpath) : option text :=
  match files d p with Some c => content c | None => None end.

(** l.287-376 *)
Definition action (fuel : nat) (content : doc -> option text) (overwrite embedded : bool) (o : options) (d : disk)
  : disk * ending :=
  match o_src o with
  | None => (d, Done (Some ANoSource))
  | Some src =>
    match read content d src with
    | None => (d, Done (Some ASource))
    | Some t =>
      match parse t with
      | PErrors => (d, Done (Some ASource))
      | PStopped => (d, Stopped)
      | PRunning => (d, Running)
      | PAccepted p =>
        if negb (is_some (o_workflow o)) && is_some (o_uml o) then (d, Done (Some ANoWorkflow))
        else
          match o_workflow o with
          | None => codes overwrite embedded o p d
          | Some wf =>
            match read content d wf with
            | None => (d, Done (Some AWorkflow))
            | Some w =>
              match wparse fuel w p with
              | WRejected => (d, Done (Some AWorkflow))
              | WPanicked => (d, Panicked)
              | WRunning => (d, Running)
              | WAccepted s p => andthen (project o s p d) (codes overwrite embedded o p)
              end
            end
          end
      end
    end
  end.

(** ** The program: main.rs l.18-26, ctrlargs.rs l.106-142 *)

Record outcome := mkOutcome {
  r_disk : disk;
  r_code : option nat;       (* exit code; [None]: still running *)
  r_unknown : list text;     (* reported as unknown *)
  r_config : list cerr;      (* errors of the configuration, as reported *)
  r_error : option aerr;     (* error of the generation, as reported *)
  r_help : bool              (* help printed *)
}.

Definition cli (fuel : nat) (content : doc -> option text) (locate : text -> fpath) (args : list text) (d : disk) : outcome :=
  let (o, d1) := configure locate args d in
  let help := flag help_keys args in
  match unknown_args args with
  | u :: us => mkOutcome d1 (Some 1) (u :: us) [] None false
  | [] =>
    if negb help && nonempty (o_errs o) then mkOutcome d1 (Some 1) [] (o_errs o) None false
    else
      match action fuel content (flag overwrite_keys args) (flag embedded_keys args) o d1 with
      | (d2, Done e) => mkOutcome d2 (Some 0) [] [] e help
      | (d2, Stopped) => mkOutcome d2 (Some 1) [] [] None help
      | (d2, Panicked) => mkOutcome d2 (Some 101) [] [] None help
      | (d2, Running) => mkOutcome d2 None [] [] None help
      end
  end.
