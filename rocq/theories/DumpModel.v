(** Model of [GerberCode.dumps], [builder/gerber.py] 640-657: the commands collected by a builder,
    with the fields the formatter prints ([GbModel.get_code] has those the visitors use), written
    by [Formatter()]. *)
From Verif Require Import Base Num CoordModel Ast GbModel.
From Verif Require Import GramAst FmtModel NumTextModel GramNum GramProps.

(** The identity of an object is not printed. *)
Definition no_uid (p : prim Q) : prim Q :=
  match p with PCode7 _ a b c d e f => PCode7 0 a b c d e f | p => p end.
(** Commands of draws: [is_standalone] is [True] by default ([nodes/d_codes/D.py] 13,
    [nodes/g_codes/G.py] 13).  Draws consist of D codes, G codes, LP, LR, LM and LS; other nodes do
    not occur. *)
Definition draw_cmd (n : Ast.node Q) : cmd Q str :=
  match n with
  | NDnn id => CDnn true id
  | ND01 x y i j => CD01 true x y i j
  | ND02 x y => CD02 true x y
  | ND03 x y => CD03 true x y
  | NG g => CG true g
  | NLP p => CLP p | NLR r => CLR r | NLM m => CLM m | NLS s => CLS s
  | _ => CM02
  end.
(** [Pad._get_nodes] 934-952: [set_aperture_function] 891-897, [set_drill_tolerance] 913-916,
    [set_custom_attribute] 932. *)
Definition pad_cmds (p : pad) : list (cmd Q str) :=
  match p_aper_function p with Some f => [CTA (TAAperFunction (Some f) [])] | None => [] end ++
  match p_tolerance p with Some t => [CTA (TADrillTolerance (Some (fst t)) (Some (snd t)))] | None => [] end ++
  map (fun a => CTA (TAUser (at_name a) (at_fields a))) (p_user p) ++
  [CAD (p_ad p)] ++
  match p_aper_function p, p_tolerance p, p_user p with None, None, [] => [] | _, _, _ => [CTD None] end.
(** [get_code] 613-633 *)
Definition get_file (g : gb) : list (cmd Q str) :=
  [CFS (MkFS SkipLeading Absolute 4 6 4 6); CMO Metric] ++
  map (fun m => CAM (fst m) (map no_uid (snd m))) (g_macros g) ++ flat_map pad_cmds (g_pads g) ++
  [CG true G75] ++ map draw_cmd (concat (g_draws g)) ++ [CM02].
(** [dump] 646-650, [dumps] 652-657: the formatter with its default options
    ([formatter/options.py] 27-194), the shortest decimal text of every float. *)
Definition dumps (g : gb) : str := formats (q_writer (-1) TrimYes) default_options (get_file g).
