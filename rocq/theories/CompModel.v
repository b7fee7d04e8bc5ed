(** Model of what the language server offers as completions,
    [gerber/language_server/_server/documents/gerber.py] 130-347: which apertures, G codes and
    extended commands.  When they are offered is in [LsModel].  An item is its label, its kind
    and its detail or inserted text; documentation texts are left out. *)
From Verif Require Import Base Num Dict CoordModel Ast StateModel GramAst FmtModel GramProps.

Inductive item_kind := KFunction | KMethod.
Record item := MkItem { i_label : str; i_kind : item_kind; i_detail : str }.

Section Apertures.
  Context {K T : Type} (w : writer K T).
  (** [get_completion_apertures] 143-152: the apertures of AD commands, formatted with the options
      [Formatter()] has by default. *)
  Definition ad_item (x : str * ad K) : item :=
    MkItem (fst x) KFunction (formats w default_options [CAD (snd x)]).
  (** 154-163: only the opening command of a block is formatted ([on_ab_open], [formatter.py]
      416-422); [format], 335-342, forgets the indent this leaves. *)
  Definition ab_item (x : str * str) : item :=
    MkItem (fst x) KMethod (ext (init default_options) (lit "AB") (snd x)).
  Definition aperture_items (s : state K) : list item :=
    map ad_item (s_apertures s) ++ map ab_item (s_blocks s).
End Apertures.

(** [get_completion_g_codes] 185-257: the labels, which are what is inserted. *)
Definition g_labels : list str :=
  map lit ["G01*"; "G02*"; "G03*"; "G04${1:comment}*"; "G36*"; "G37*"; "G54"; "G55"; "G74"; "G75";
           "G90"; "G91"]%string.

(** [_get_completion_ad_commands] 297-347 *)
Definition ad_snippets (next : Z) : list str :=
  let ad (s : string) := lit "ADD" ++ z_repr next ++ lit s in
  [ ad "C,${1:diameter}*"%string;
    ad "C,${1:diameter}X${2:hole_diameter}*"%string;
    ad "R,${1:width}X${2:height}*"%string;
    ad "R,${1:width}X${2:height}X${3:hole_diameter}*"%string;
    ad "O,${1:width}X${2:height}*"%string;
    ad "O,${1:width}X${2:height}X${3:hole_diameter}*"%string;
    ad "P,${1:outer_diameter}X${2:vertices}X${3:rotation}*"%string;
    ad "P,${1:outer_diameter}X${2:vertices}X${3:rotation}X${4:hole_diameter}*"%string ].
(** [get_completion_extended_command] 259-295, without the document: [None] is a document that
    was never parsed. *)
Definition other_snippets : list str :=
  map lit ["FSLAX${1:4}${2:6}Y${1:4}${2:6}*"; "MO${1:MM}*"; "LP${1:D}*"; "LP${1:C}*"]%string.
Definition extended_snippets {K} (s : option (state K)) : result exc (list str) :=
  match s with
  | None => Ok other_snippets
  | Some s => let* c := next_free_code s in Ok (ad_snippets c ++ other_snippets)
  end.
