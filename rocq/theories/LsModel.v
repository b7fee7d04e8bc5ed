(** Model of [GerberDocument], [gerber/language_server/_server/documents/gerber.py] 22-347:
    the document of the language server with its caches.  Parsing, tracking the state, finding
    nodes, hover texts and formatted apertures are parameters that may raise; the constant lists
    of completions are constructors.  Log messages are not modelled. *)
From Verif Require Import Base LockModel.
Local Open Scope nat_scope.

Section Doc.
Context {Ast State Node Pos Range Items Code : Type}.

Record gerber_lib := {
  g_sha : str -> str;                        (* [sha256] 22-24 *)
  g_parse : str -> option Ast;               (* [Parser(resilient=True).parse] *)
  g_find : Ast -> Pos -> option (option Node);   (* [NodeFinder(ast).find_node] *)
  g_markdown : Ast -> Node -> option str;    (* [GerberHoverCreator(ast).create_hover_markdown] *)
  g_source : Node -> option Range;           (* [node.source_info] *)
  g_invalid : Node -> option str;            (* the string of an [Invalid] node *)
  g_track : Ast -> option State;             (* the state after visiting the file *)
  g_items : State -> option Items;           (* the apertures, formatted *)
  g_next_code : State -> option Code         (* [get_next_free_aperture_code] *)
}.

Record gdoc := {
  d_ast : option Ast; d_state : option State; d_hash : str; d_uri : str;
  d_apertures : option Items
}.

Record params := { p_text : str; p_pos : Pos }.

Inductive answer :=
| ANothing                                   (* [None] *)
| AHover (text : str) (range : Range)
| AGCodes | AApertures (items : Items) | AExtended (next : option Code) | ANoItems.

Variable G : gerber_lib.

(** [flush_cached_values], 34-40; also what [__init__] does. *)
Definition flushed : gdoc :=
  {| d_ast := None; d_state := None; d_hash := g_sha G []; d_uri := []; d_apertures := None |}.

(** [load_ast_from_code], 47-58; raises what the parser raises. *)
Definition load_ast (code : str) (d : gdoc) : gdoc * option Ast :=
  let parse_it :=
    match g_parse G code with
    | Some a => ({| d_ast := Some a; d_state := d_state d; d_hash := g_sha G code;
                    d_uri := d_uri d; d_apertures := d_apertures d |}, Some a)
    | None => (d, None)
    end in
  match d_ast d with
  | Some a => if str_eqb (g_sha G code) (d_hash d) then (d, Some a) else parse_it
  | None => parse_it
  end.

Definition set_uri (u : str) (d : gdoc) : gdoc :=
  {| d_ast := d_ast d; d_state := d_state d; d_hash := d_hash d; d_uri := u;
     d_apertures := d_apertures d |}.

Definition done (r : gdoc * option Ast) : gdoc * option answer :=
  (fst r, match snd r with Some _ => Some ANothing | None => None end).

(** [on_open], 60-64. *)
Definition on_open (u code : str) (d : gdoc) : gdoc * option answer :=
  done (load_ast code (set_uri u flushed)).

(** [on_change], 69-72; [code] is the text of the document in the workspace. *)
Definition on_change (code : str) (d : gdoc) : gdoc * option answer :=
  done (load_ast code flushed).

(** [on_hover], 74-100. *)
Definition on_hover (p : Pos) (d : gdoc) : gdoc * option answer :=
  (d, match d_ast d with
      | None => Some ANothing
      | Some a =>
          match g_find G a p with
          | None => None
          | Some None => Some ANothing
          | Some (Some n) =>
              match g_markdown G a n with
              | None => None
              | Some m => match g_source G n with
                          | None => Some ANothing
                          | Some r => Some (AHover m r)
                          end
              end
          end
      end).

(** [get_gerber_state], 173-183: outer [None] for an exception. *)
Definition get_state (d : gdoc) : gdoc * option (option State) :=
  match d_state d with
  | Some s => (d, Some (Some s))
  | None =>
      match d_ast d with
      | None => (d, Some None)
      | Some a =>
          match g_track G a with
          | None => (d, None)
          | Some s => ({| d_ast := d_ast d; d_state := Some s; d_hash := d_hash d;
                          d_uri := d_uri d; d_apertures := d_apertures d |}, Some (Some s))
          end
      end
  end.

(** [get_completion_apertures], 130-171. *)
Definition complete_apertures (d : gdoc) : gdoc * option answer :=
  match d_apertures d with
  | Some x => (d, Some (AApertures x))
  | None =>
      match get_state d with
      | (d1, None) => (d1, None)
      | (d1, Some None) => (d1, Some ANothing)
      | (d1, Some (Some s)) =>
          match g_items G s with
          | None => (d1, None)
          | Some x => ({| d_ast := d_ast d1; d_state := d_state d1; d_hash := d_hash d1;
                          d_uri := d_uri d1; d_apertures := Some x |}, Some (AApertures x))
          end
      end
  end.

(** [get_completion_extended_command] and [_get_completion_ad_commands], 260-347. *)
Definition complete_extended (d : gdoc) : gdoc * option answer :=
  match get_state d with
  | (d1, None) => (d1, None)
  | (d1, Some None) => (d1, Some (AExtended None))
  | (d1, Some (Some s)) =>
      (d1, match g_next_code G s with Some c => Some (AExtended (Some c)) | None => None end)
  end.

(** [re.match(r"c\d*", string)]: the digits are optional, so only the first character counts. *)
Definition starts (c : ascii) (x : str) : bool :=
  match x with y :: _ => Ascii.eqb c y | [] => false end.

(** [on_completion], 102-128. *)
Definition on_completion (p : Pos) (d : gdoc) : gdoc * option answer :=
  match d_ast d with
  | None => (d, Some ANothing)
  | Some a =>
      match g_find G a p with
      | None => (d, None)
      | Some None => (d, Some ANothing)
      | Some (Some n) =>
          match g_invalid G n with
          | None => (d, Some ANothing)
          | Some [] => (d, Some ANothing)
          | Some x =>
              if starts "G" x then (d, Some AGCodes)
              else if starts "D" x then complete_apertures d
              else if starts "%" x then complete_extended d
              else (d, Some ANoItems)
          end
      end
  end.

Definition on_gerber (r : request params) (d : gdoc) : gdoc * option answer :=
  match rq_kind r with
  | KOpen => on_open (rq_uri r) (p_text (rq_par r)) d
  | KClose => (d, Some ANothing)             (* [on_close], 66-67: nothing *)
  | KChange => on_change (p_text (rq_par r)) d
  | KHover => on_hover (p_pos (rq_par r)) d
  | KCompletion => on_completion (p_pos (rq_par r)) d
  end.

(** The server with Gerber documents only, as [get_document] makes them. *)
Definition gerber_server (sup : str -> bool) : library gdoc params answer :=
  {| supported := sup; new_doc := flushed; on_request := on_gerber |}.
End Doc.
Arguments gerber_lib : clear implicits.
Arguments gdoc : clear implicits.
Arguments params : clear implicits.
Arguments answer : clear implicits.
