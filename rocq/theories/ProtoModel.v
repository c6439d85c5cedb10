(** Model of the protocol parser: cli/src/protocol/{parser,store,fields,enums,
    structs,groups,entities,types}.rs.

    A text is a list of bytes ([ascii]); the Rust code iterates over chars, but
    it stops at the first non-ASCII char, i.e. at the first byte above 127.
    Error messages are reduced to their number.  The macro [stop!]
    (main.rs l.11-16) prints a message and ends the process with code 1. *)
From Coq Require Import String Ascii NArith List Arith Lia Bool.
From Verif Require Import Bytes.
Import ListNotations.
Close Scope string_scope.
Open Scope list_scope.
Open Scope nat_scope.

Definition text := list ascii.
Definition txt (s : string) : text := list_ascii_of_string s.

Fixpoint teqb (a b : text) : bool :=
  match a, b with
  | [], [] => true
  | x :: a, y :: b => Ascii.eqb x y && teqb a b
  | _, _ => false
  end.

(** ** Lexer: parser.rs l.21-36, l.313-394 *)

Definition code (c : ascii) : N := N_of_ascii c.
Definition in_range (lo hi : N) (c : ascii) : bool := ((lo <=? code c) && (code c <=? hi))%N.

(** [char::is_ascii], [is_ascii_digit], [is_ascii_whitespace],
    [is_ascii_alphanumeric] *)
Definition is_ascii (c : ascii) : bool := (code c <? 128)%N.
Definition is_digit (c : ascii) : bool := in_range 48 57 c.
Definition is_ws (c : ascii) : bool :=
  existsb (fun n => (code c =? n)%N) [32; 9; 10; 12; 13]%N.
Definition is_alnum (c : ascii) : bool :=
  is_digit c || in_range 65 90 c || in_range 97 122 c.

(** helpers/chars.rs; parser.rs l.316-324 *)
Definition break_chars : list ascii := [";"; "{"; "}"; "?"; "."]%char.
Definition is_break (c : ascii) : bool := existsb (Ascii.eqb c) break_chars.

Inductive tok :=
| TWord (w : text) (offset : nat) (brk : option ascii)
| TOpen (offset : nat)
| TClose (offset : nat)
| TSemi (offset : nat)
| TRep (offset : nat)
| TOpt (offset : nat)
| TDot (offset : nat)
| TEnd.

Inductive lexerr := LNotAscii | LNumericFirst | LNotSupported.

(** parser.rs l.313-394 [next]; [str] and [pass] are the loop variables *)
Fixpoint lex (content : text) (str : text) (pass : nat) : res tok lexerr :=
  match content with
  | [] =>
    match str with
    | [] => Ok TEnd
    | _ => Ok (TWord str (pass - 1) None)
    end
  | c :: content =>
    let pass := S pass in
    let empty := match str with [] => true | _ => false end in
    if negb (is_ascii c) then Err LNotAscii
    else if is_digit c && empty then Err LNumericFirst
    else if is_ws c && empty then lex content str pass
    else if is_break c && empty then
      (if Ascii.eqb c ";" then Ok (TSemi pass)
       else if Ascii.eqb c "{" then Ok (TOpen pass)
       else if Ascii.eqb c "}" then Ok (TClose pass)
       else if Ascii.eqb c "?" then Ok (TOpt pass)
       else Ok (TDot pass))%char
    else if Ascii.eqb c "[" && empty then lex content str pass
    else if Ascii.eqb c "]" then
      match str with
      | d :: _ => if Ascii.eqb d "[" then Ok (TRep pass) else Err LNotSupported
      | [] => Ok (TRep pass)
      end
    else if is_ws c || is_break c || Ascii.eqb c "[" then
      Ok (TWord str (pass - 1) (if is_break c || Ascii.eqb c "[" then Some c else None))
    else if negb (is_alnum c) && negb (Ascii.eqb c "_") then Err LNotSupported
    else lex content (str ++ [c]) pass
  end.

(** ** Store *)

(** types.rs l.24-78 *)
Definition primitives : list text :=
  map txt ["bool"; "char"; "i8"; "i16"; "i32"; "i64"; "isize"; "u8"; "u16"; "u32"; "u64";
           "usize"; "f32"; "f64"; "str"]%string.
Definition is_primitive (t : text) : bool := existsb (teqb t) primitives.

(** fields.rs l.10-37 ([ref_type] is never set) *)
Record pfield := mkField {
  f_id : nat; f_parent : nat; f_name : text; f_kind : text;
  f_ref : option nat; f_ref_path : list nat;
  f_rep : bool; f_opt : bool; f_tpath : list text
}.

(** structs.rs l.3-22 *)
Record pstruct := mkStruct {
  s_id : nat; s_parent : nat; s_name : text; s_fields : list pfield; s_path : list text
}.

(** enums.rs l.4-11; [i_types] is the primitive, by its name *)
Record pitem := mkItem {
  i_name : text; i_types : option text; i_ref : option nat; i_ref_path : list nat;
  i_rep : bool; i_tpath : list text
}.

(** enums.rs l.58-77 *)
Record penum := mkEnum {
  e_id : nat; e_parent : nat; e_name : text; e_items : list pitem; e_path : list text;
  e_cur : option pitem
}.

(** groups.rs l.1-24 *)
Record pgroup := mkGroup {
  g_id : nat; g_parent : nat; g_name : text;
  g_structs : list nat; g_enums : list nat; g_groups : list nat
}.

(** store.rs l.5-35 (without the hash) *)
Record store := mkStore {
  seq : nat;
  structs : list pstruct; enums : list penum; groups : list pgroup;
  c_struct : option pstruct; c_group : option pgroup;
  c_enum : option penum; c_field : option pfield;
  path : list nat
}.

Definition store_new : store := mkStore 0 [] [] [] None None None None [].

Definition set_seq s n := mkStore n (structs s) (enums s) (groups s) (c_struct s) (c_group s) (c_enum s) (c_field s) (path s).
Definition set_structs s x := mkStore (seq s) x (enums s) (groups s) (c_struct s) (c_group s) (c_enum s) (c_field s) (path s).
Definition set_enums s x := mkStore (seq s) (structs s) x (groups s) (c_struct s) (c_group s) (c_enum s) (c_field s) (path s).
Definition set_groups s x := mkStore (seq s) (structs s) (enums s) x (c_struct s) (c_group s) (c_enum s) (c_field s) (path s).
Definition set_c_struct s x := mkStore (seq s) (structs s) (enums s) (groups s) x (c_group s) (c_enum s) (c_field s) (path s).
Definition set_c_group s x := mkStore (seq s) (structs s) (enums s) (groups s) (c_struct s) x (c_enum s) (c_field s) (path s).
Definition set_c_enum s x := mkStore (seq s) (structs s) (enums s) (groups s) (c_struct s) (c_group s) x (c_field s) (path s).
Definition set_c_field s x := mkStore (seq s) (structs s) (enums s) (groups s) (c_struct s) (c_group s) (c_enum s) x (path s).
Definition set_path s x := mkStore (seq s) (structs s) (enums s) (groups s) (c_struct s) (c_group s) (c_enum s) (c_field s) x.

(** ends of a run other than a token error: [stop!], or a [while] loop that has
    not finished within its fuel (shown impossible) *)
Inductive halt := HStop | HFuel.
Definition sres := res store halt.

(** store.rs l.93-95 [get_group] *)
Definition get_group (s : store) (id : nat) : option pgroup :=
  find (fun g => g_id g =? id) (groups s).

(** store.rs l.124-127: the [while] loop of [get_path_by_parent] *)
Fixpoint climb (fuel : nat) (s : store) (parent : nat) : res (list text) halt :=
  match fuel with
  | O => Err HFuel
  | S f =>
    match get_group s parent with
    | None => Ok []
    | Some g => do r <- climb f s (g_parent g); Ok (g_name g :: r)
    end
  end.

(** store.rs l.107-130 [get_path_by_parent] *)
Definition path_by_parent (s : store) (parent : nat) : res (list text) halt :=
  if parent =? 0 then Ok []
  else
    let first := match get_group s parent with
                 | Some g => Some g
                 | None => c_group s
                 end in
    match first with
    | None => Ok []
    | Some g =>
      if g_parent g =? 0 then Ok [g_name g]
      else do r <- climb (S (g_parent g)) s (g_parent g); Ok (rev (g_name g :: r))
    end.

(** store.rs l.469-475 [get_group_id] *)
Definition group_id (s : store) : nat :=
  match c_group s with Some g => g_id g | None => 0 end.

(** store.rs l.477-497 [bind_struct_with_group], [bind_enum_with_group],
    [bind_group_with_group] and groups.rs l.24-34 *)
Definition bind_struct_id (s : store) (id : nat) : store :=
  match c_group s with
  | Some g => set_c_group s (Some (mkGroup (g_id g) (g_parent g) (g_name g)
                                     (g_structs g ++ [id]) (g_enums g) (g_groups g)))
  | None => s
  end.
Definition bind_enum_id (s : store) (id : nat) : store :=
  match c_group s with
  | Some g => set_c_group s (Some (mkGroup (g_id g) (g_parent g) (g_name g)
                                     (g_structs g) (g_enums g ++ [id]) (g_groups g)))
  | None => s
  end.
Definition bind_group_id (s : store) (id : nat) : store :=
  match c_group s with
  | Some g =>
    let g' := mkGroup (g_id g) (g_parent g) (g_name g) (g_structs g) (g_enums g) (g_groups g ++ [id]) in
    set_groups (set_c_group s (Some g')) (groups s ++ [g'])
  | None => s
  end.

(** store.rs l.132-148 [open_struct] *)
Definition open_struct (s : store) (name : text) : sres :=
  match c_struct s, c_enum s with
  | None, None =>
    let s := set_seq s (S (seq s)) in
    let s := bind_struct_id s (seq s) in
    let parent := group_id s in
    do p <- path_by_parent s parent;
    Ok (set_c_struct s (Some (mkStruct (seq s) parent name [] p)))
  | _, _ => Err HStop
  end.

(** store.rs l.150-166 [open_enum] *)
Definition open_enum (s : store) (name : text) : sres :=
  match c_struct s, c_enum s with
  | None, None =>
    let s := set_seq s (S (seq s)) in
    let s := bind_enum_id s (seq s) in
    let parent := group_id s in
    do p <- path_by_parent s parent;
    Ok (set_c_enum s (Some (mkEnum (seq s) parent name [] p None)))
  | _, _ => Err HStop
  end.

(** store.rs l.168-180 [open_group] *)
Definition open_group (s : store) (name : text) : sres :=
  match c_struct s, c_enum s with
  | None, None =>
    let parent := group_id s in
    let s := set_seq s (S (seq s)) in
    let s := bind_group_id s (seq s) in
    let s := set_c_group s (Some (mkGroup (seq s) parent name [] [] [])) in
    Ok (set_path s (path s ++ [seq s]))
  | _, _ => Err HStop
  end.

(** store.rs l.182-194 [set_field_type]; fields.rs l.75-77 [add_type_path] *)
Definition add_ftype (f : pfield) (t : text) : pfield :=
  mkField (f_id f) (f_parent f) (f_name f) (f_kind f) (f_ref f) (f_ref_path f)
          (f_rep f) (f_opt f) (f_tpath f ++ [t]).
Definition set_field_type (s : store) (t : text) : sres :=
  match c_struct s with
  | None => Err HStop
  | Some _ =>
    match c_field s with
    | Some f => Ok (set_c_field s (Some (add_ftype f t)))
    | None =>
      let s := set_seq s (S (seq s)) in
      Ok (set_c_field s (Some (add_ftype (mkField (seq s) 0 [] t None [] false false []) t)))
    end
  end.

(** store.rs l.206-241 [find_by_path]: ids of the groups passed and of the
    entity found ([path] is never empty; an empty one would underflow) *)
Fixpoint find_by_path (s : store) (parent : nat) (p : list text) : option (list nat * nat) :=
  match p with
  | [] => None
  | [t] =>
    match find (fun e => teqb (e_name e) t && (e_parent e =? parent)) (enums s) with
    | Some e => Some ([], e_id e)
    | None =>
      match find (fun x => teqb (s_name x) t && (s_parent x =? parent)) (structs s) with
      | Some x => Some ([], s_id x)
      | None => None
      end
    end
  | t :: p =>
    match find (fun g => teqb (g_name g) t && (g_parent g =? parent)) (groups s) with
    | Some g =>
      match find_by_path s (g_id g) p with
      | Some (gs, id) => Some (g_id g :: gs, id)
      | None => None
      end
    | None => None
    end
  end.

(** fields.rs l.99-124, enums.rs l.14-42: own group first, then the root *)
Definition resolve (s : store) (own : nat) (p : list text) : option (list nat * nat) :=
  match find_by_path s own p with
  | Some r => Some r
  | None => find_by_path s 0 p
  end.

(** fields.rs l.99-124 [Field::accept_type] *)
Definition accept_ftype (s : store) (own : nat) (f : pfield) : res pfield halt :=
  match f_tpath f with
  | [] => Err HStop
  | first :: more =>
    if (match more with [] => true | _ => false end) && is_primitive first
    then Ok (mkField (f_id f) (f_parent f) (f_name f) first (f_ref f) (f_ref_path f)
                     (f_rep f) (f_opt f) (f_tpath f))
    else
      match resolve s own (f_tpath f) with
      | None => Err HStop
      | Some (gs, id) =>
        Ok (mkField (f_id f) (f_parent f) (f_name f) (last (f_tpath f) []) (Some id) gs
                    (f_rep f) (f_opt f) (f_tpath f))
      end
  end.

(** store.rs l.276-286 [set_field_type_as_repeated], enums.rs l.111-118 *)
Definition set_repeated (s : store) : sres :=
  match c_enum s with
  | Some e =>
    match e_cur e with
    | Some i =>
      let i' := mkItem (i_name i) (i_types i) (i_ref i) (i_ref_path i) true (i_tpath i) in
      Ok (set_c_enum s (Some (mkEnum (e_id e) (e_parent e) (e_name e) (e_items e) (e_path e) (Some i'))))
    | None => Err HStop
    end
  | None =>
    match c_field s with
    | Some f => Ok (set_c_field s (Some (mkField (f_id f) (f_parent f) (f_name f) (f_kind f)
                      (f_ref f) (f_ref_path f) true (f_opt f) (f_tpath f))))
    | None => Err HStop
    end
  end.

(** store.rs l.288-295 [set_field_type_as_optional] *)
Definition set_optional (s : store) : sres :=
  match c_field s with
  | Some f => Ok (set_c_field s (Some (mkField (f_id f) (f_parent f) (f_name f) (f_kind f)
                    (f_ref f) (f_ref_path f) (f_rep f) true (f_tpath f))))
  | None => Err HStop
  end.

(** store.rs l.297-315 [set_field_name] *)
Definition set_field_name (s : store) (name : text) : sres :=
  match c_struct s with
  | None => Err HStop
  | Some _ =>
    match c_field s with
    | None => Err HStop
    | Some f =>
      let f := mkField (f_id f) (f_parent f) name (f_kind f) (f_ref f) (f_ref_path f)
                       (f_rep f) (f_opt f) (f_tpath f) in
      do f' <- accept_ftype s (group_id s) f;
      Ok (set_c_field s (Some f'))
    end
  end.

(** store.rs l.317-329 [close_field], structs.rs l.23-33 [add_field] *)
Definition close_field (s : store) : sres :=
  match c_struct s with
  | None => Err HStop
  | Some x =>
    match c_field s with
    | None => Err HStop
    | Some f =>
      if existsb (fun g => teqb (f_name g) (f_name f)) (s_fields x) then Err HStop
      else
        let f' := mkField (f_id f) (s_id x) (f_name f) (f_kind f) (f_ref f) (f_ref_path f)
                          (f_rep f) (f_opt f) (f_tpath f) in
        Ok (set_c_field
              (set_c_struct s (Some (mkStruct (s_id x) (s_parent x) (s_name x)
                                              (s_fields x ++ [f']) (s_path x))))
              None)
    end
  end.

(** store.rs l.331-338 [set_enum_type], enums.rs l.135-151 [add_type_path] *)
Definition set_enum_type (s : store) (t : text) : sres :=
  match c_enum s with
  | None => Err HStop
  | Some e =>
    let cur := match e_cur e with
               | Some i => i
               | None => mkItem [] None None [] false []
               end in
    let cur' := mkItem (i_name cur) (i_types cur) (i_ref cur) (i_ref_path cur) (i_rep cur)
                       (i_tpath cur ++ [t]) in
    Ok (set_c_enum s (Some (mkEnum (e_id e) (e_parent e) (e_name e) (e_items e) (e_path e) (Some cur'))))
  end.

(** store.rs l.340-347 [set_simple_enum_item], enums.rs l.120-133, l.79-87 *)
Definition set_simple (s : store) (w : text) : sres :=
  match c_enum s with
  | None => Err HStop
  | Some e =>
    match e_cur e with
    | Some _ => Err HStop
    | None =>
      let i := mkItem w (Some (txt "str")) None [] false [] in
      Ok (set_c_enum s (Some (mkEnum (e_id e) (e_parent e) (e_name e) (e_items e ++ [i]) (e_path e) None)))
    end
  end.

(** enums.rs l.14-42 [EnumItem::accept_type] *)
Definition accept_itype (s : store) (own : nat) (i : pitem) : res pitem halt :=
  match i_tpath i with
  | [] => Err HStop
  | first :: more =>
    if (match more with [] => true | _ => false end) && is_primitive first
    then Ok (mkItem (i_name i) (Some first) (i_ref i) (i_ref_path i) (i_rep i) (i_tpath i))
    else
      match resolve s own (i_tpath i) with
      | None => Err HStop
      | Some (gs, id) => Ok (mkItem (i_name i) (i_types i) (Some id) gs (i_rep i) (i_tpath i))
      end
  end.

(** store.rs l.349-364 [set_enum_name], enums.rs l.79-87 [set_name] *)
Definition set_enum_name (s : store) (name : text) : sres :=
  match c_enum s with
  | None => Err HStop
  | Some e =>
    match e_cur e with
    | None => Err HStop
    | Some i =>
      do i1 <- accept_itype s (group_id s) i;
      let i2 := mkItem name (i_types i1) (i_ref i1) (i_ref_path i1) (i_rep i1) (i_tpath i1) in
      Ok (set_c_enum s (Some (mkEnum (e_id e) (e_parent e) (e_name e) (e_items e ++ [i2]) (e_path e) None)))
    end
  end.

(** store.rs l.366-372 *)
Definition enum_opened (s : store) : bool := match c_enum s with Some _ => true | None => false end.
Definition field_opened (s : store) : bool := match c_field s with Some _ => true | None => false end.

(** store.rs l.374-378 [open] *)
Definition open (s : store) : sres :=
  match c_group s, c_struct s, c_enum s with
  | None, None, None => Err HStop
  | _, _, _ => Ok s
  end.

(** [Vec::position] and [Vec::remove] *)
Fixpoint remove_group (id : nat) (gs : list pgroup) : option (pgroup * list pgroup) :=
  match gs with
  | [] => None
  | g :: gs =>
    if g_id g =? id then Some (g, gs)
    else match remove_group id gs with
         | Some (x, gs') => Some (x, g :: gs')
         | None => None
         end
  end.

(** store.rs l.380-405 [close] *)
Definition close (s : store) : sres :=
  match c_enum s with
  | Some e => Ok (set_c_enum (set_enums s (enums s ++ [e])) None)
  | None =>
    match c_struct s with
    | Some x => Ok (set_c_struct (set_structs s (structs s ++ [x])) None)
    | None =>
      match c_group s with
      | Some g =>
        let gs := groups s ++ [g] in
        let p := removelast (path s) in
        match p with
        | [] => Ok (set_path (set_c_group (set_groups s gs) None) [])
        | _ =>
          match remove_group (last p 0) gs with
          | Some (parent, gs') => Ok (set_path (set_c_group (set_groups s gs') (Some parent)) p)
          | None => Err HStop
          end
        end
      | None => Err HStop
      end
    end
  end.

(** ** Parser: parser.rs l.38-56 [EExpectation], l.68-311 [parse] *)

Inductive expect :=
| XGroupDef | XGroupName | XStructDef | XEnumDef | XEnumValue | XFieldType | XFieldName
| XRepeatedMark | XOptionalMark | XStructName | XEnumName | XOpen | XClose | XSemicolon
| XPathSpliter.

Definition expect_eqb (a b : expect) : bool :=
  match a, b with
  | XGroupDef, XGroupDef | XGroupName, XGroupName | XStructDef, XStructDef | XEnumDef, XEnumDef
  | XEnumValue, XEnumValue | XFieldType, XFieldType | XFieldName, XFieldName
  | XRepeatedMark, XRepeatedMark | XOptionalMark, XOptionalMark | XStructName, XStructName
  | XEnumName, XEnumName | XOpen, XOpen | XClose, XClose | XSemicolon, XSemicolon
  | XPathSpliter, XPathSpliter => true
  | _, _ => false
  end.
Definition is_in (xs : list expect) (x : expect) : bool := existsb (expect_eqb x) xs.

(** entities.rs l.22-29 [get_entity] *)
Inductive entity := EGroup | EStruct | EEnum.
Definition get_entity (w : text) : option entity :=
  if teqb w (txt "group") then Some EGroup
  else if teqb w (txt "struct") then Some EStruct
  else if teqb w (txt "enum") then Some EEnum
  else None.

(** what one token does: go on with an offset, leave the loop with or without
    an additional error, or end the process *)
Inductive after :=
| AGo (xs : list expect) (s : store) (errs : nat) (offset : nat)
| ABreak (errs : nat)
| AHalt (h : halt).

Definition go (xs : list expect) (errs offset : nat) (r : sres) : after :=
  match r with
  | Ok s => AGo xs s errs offset
  | Err h => AHalt h
  | Panic => AHalt HStop              (* not produced by store operations *)
  end.

Definition after_open : list expect :=
  [XFieldType; XGroupDef; XStructDef; XEnumDef; XEnumValue; XClose].
Definition after_close : list expect := [XFieldType; XGroupDef; XStructDef; XEnumDef; XClose].
Definition after_semi : list expect := [XFieldType; XStructDef; XEnumDef; XEnumValue; XClose].
Definition after_type : list expect := [XFieldName; XRepeatedMark; XPathSpliter].
Definition at_start : list expect := [XStructDef; XGroupDef; XEnumDef].

(** parser.rs l.88-282.  The second cascade l.131-137 is dead code: after the
    first one no definition is expected. *)
Definition act (t : tok) (xs : list expect) (s : store) (errs : nat) : after :=
  match t with
  | TWord w off brk =>
    if (match get_entity w with Some _ => true | None => false end) &&
       (is_in xs XGroupDef || is_in xs XStructDef || is_in xs XEnumDef)
    then
      match get_entity w with
      | Some EGroup => if is_in xs XGroupDef then AGo [XGroupName] s errs off else AHalt HStop
      | Some EStruct => if is_in xs XStructDef then AGo [XStructName] s errs off else AHalt HStop
      | Some EEnum => if is_in xs XEnumDef then AGo [XEnumName] s errs off else AHalt HStop
      | None => AHalt HStop
      end
    else if is_in xs XStructName then go [XOpen] errs off (open_struct s w)
    else if is_in xs XEnumName then go [XOpen] errs off (open_enum s w)
    else if is_in xs XGroupName then go [XOpen] errs off (open_group s w)
    else if is_in xs XFieldName then
      if enum_opened s then go [XSemicolon] errs off (set_enum_name s w)
      else go [XSemicolon; XOptionalMark] errs off (set_field_name s w)
    else if is_in xs XFieldType then
      if enum_opened s then
        (match brk with
         | Some c => if Ascii.eqb c ";" then go [XSemicolon] errs off (set_simple s w)
                     else go after_type errs off (set_enum_type s w)
         | None => go after_type errs off (set_enum_type s w)
         end)
      else go after_type errs off (set_field_type s w)
    else ABreak (S errs)
  | TOpen off =>
    if is_in xs XOpen then go after_open errs off (open s) else ABreak (S errs)
  | TClose off =>
    if is_in xs XClose then go after_close errs off (close s) else ABreak (S errs)
  | TSemi off =>
    if is_in xs XSemicolon
    then go after_semi errs off (if enum_opened s then Ok s else close_field s)
    else ABreak (S errs)
  | TRep off =>
    if is_in xs XRepeatedMark then go [XFieldName] errs off (set_repeated s) else ABreak (S errs)
  | TOpt off =>
    if is_in xs XOptionalMark then go [XSemicolon] errs off (set_optional s) else ABreak (S errs)
  | TDot off =>
    if is_in xs XPathSpliter
    then AGo [XFieldType] s
             (if negb (field_opened s) && negb (enum_opened s) then S errs else errs) off
    else ABreak (S errs)
  | TEnd => ABreak errs
  end.

(** parser.rs l.68-311 *)
Inductive presult :=
| PAccepted (s : store)      (* [Ok(store)] *)
| PErrors                    (* [Err(..)] *)
| PStopped                   (* process ended by [stop!] *)
| PRunning.                  (* fuel used up *)

Fixpoint run (fuel : nat) (content : text) (xs : list expect) (s : store) (errs : nat) : presult :=
  match fuel with
  | O => PRunning
  | S f =>
    match lex content [] 0 with
    | Err _ => PErrors
    | Panic => PErrors                  (* not produced *)
    | Ok t =>
      match act t xs s errs with
      | AGo xs' s' errs' off => run f (skipn off content) xs' s' errs'
      | ABreak n => if n =? 0 then PAccepted s else PErrors   (* [order] always succeeds *)
      | AHalt HStop => PStopped
      | AHalt HFuel => PRunning
      end
    end
  end.

Definition fuel_for (content : text) : nat := 4 * (length content + 1).

Definition parse (content : text) : presult :=
  run (fuel_for content) content at_start store_new 0.

(** store.rs l.4, l.40-82 [add_service_struct], called by the workflow
    (config.rs); [fs] are the fields as made by
    [Field::create_not_assigned_primitive] (fields.rs l.39-61). *)
Definition service_group : text := txt "InternalServiceGroup".

Definition number_fields (sid : nat) (start : nat) (fs : list (text * text * bool)) : list pfield :=
  map (fun p : nat * (text * text * bool) =>
         let '(k, (name, kind, opt)) := p in
         mkField (start + k + 1) sid name kind None [] false opt [kind])
      (combine (List.seq 0 (length fs)) fs).

Definition is_service (g : pgroup) : bool := teqb (g_name g) service_group && (g_parent g =? 0).

Definition add_service_struct (s : store) (name : text) (fs : list (text * text * bool)) : store :=
  let s := if existsb is_service (groups s) then s
           else let s := set_seq s (S (seq s)) in
                set_groups s (groups s ++ [mkGroup (seq s) 0 service_group [] [] []]) in
  match find is_service (groups s) with
  | None => s
  | Some g =>
    let p := match path_by_parent s (g_id g) with Ok p => p | _ => [] end in
    let s := set_seq s (S (seq s)) in
    let sid := seq s in
    let x := mkStruct sid (g_id g) name (number_fields sid (seq s) fs) p in
    let s := set_seq s (seq s + length fs) in
    let bindg (h : pgroup) :=
      mkGroup (g_id h) (g_parent h) (g_name h) (g_structs h ++ [sid]) (g_enums h) (g_groups h) in
    let fix upd (gs : list pgroup) :=
      match gs with
      | [] => []
      | h :: gs => if is_service h then bindg h :: gs else h :: upd gs
      end in
    set_structs (set_groups s (upd (groups s))) (structs s ++ [x])
  end.

(** store.rs l.417-441 [get_struct_path], l.443-467 [get_enum_path]: names from
    the root; [stop!] if a group on the way is missing *)
Fixpoint up_path (fuel : nat) (s : store) (parent : nat) (acc : list text) : res (list text) halt :=
  match fuel with
  | O => Err HFuel
  | S f =>
    if parent =? 0 then Ok acc
    else match get_group s parent with
         | Some g => up_path f s (g_parent g) (g_name g :: acc)
         | None => Err HStop
         end
  end.
