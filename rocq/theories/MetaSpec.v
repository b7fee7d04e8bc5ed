(** Specification vocabulary for C88: metadata of drawings, and the attributes in force. *)
From Verif Require Import Base Num Dict CoordModel Ast StateModel StateSpec GeomModel CompilerModel.

Section Spec.
  Context {K : Type}.
  Definition draw_meta (d : draw K) : meta := match d with DShape s => sh_meta s | DPaste p => pa_meta p end.
  (** A command without its metadata. *)
  Definition bare_draw (d : draw K) : draw K :=
    match d with
    | DShape s => DShape (MkShape (sh_segs s) (sh_neg s) None)
    | DPaste p => DPaste (MkPaste (pa_src p) (pa_center p) (pa_neg p) None)
    end.
  Definition bare (c : cmd K) : cmd K := match c with KDraw d => KDraw (bare_draw d) | _ => c end.
  Definition is_bare (c : cmd K) : Prop := match c with KDraw d => draw_meta d = None | _ => True end.

  (** The attributes in force after some commands. *)
  Definition attributes (pre : list (node K)) : attrs_spec := fold_left attrs_step pre attrs_init.
  (** [m] holds exactly the attributes [a]. *)
  Definition labelled (a : amap) (m : meta) : Prop := exists d, m = Some d /\ forall k, d_get k d = a k.

  (** Primitives of macros that draw rings or paste layers. *)
  Definition ringed (p : prim K) : bool := match p with PCode6 _ _ _ _ _ _ _ _ _ | PCode7 _ _ _ _ _ _ _ => true | _ => false end.
End Spec.
