(** Gerber abstract syntax, [gerber/ast/nodes/**].  Source locations are left out (they are
    modelled separately where needed).  [K] stands for Python [float].
    [uid] fields stand for the Python object identity [id(node)]. *)
From Verif Require Import Base Num CoordModel.

(** [nodes/enums.py] 26-37, 139-200. *)
Inductive notation := Absolute | Incremental.
Inductive mirroring := MirNone | MirX | MirY | MirXY.
Inductive polarity := Clear | Dark.
Inductive axis_corr := AXBY | AYBX.
Inductive unit_mode := Imperial | Metric.
Inductive image_polarity := ImgPositive | ImgNegative.

(** [nodes/math/**]: operators carry a head and a flat tail. *)
Inductive expr (K : Type) : Type :=
| EConst (c : K)                                  (* math/constant.py 16-19 *)
| EVar (v : str)                                  (* math/variable.py 15-18 *)
| EParen (e : expr K)                             (* math/parenthesis.py 17-20 *)
| ENeg (e : expr K) | EPos (e : expr K)           (* math/operators/unary *)
| EAdd (h : expr K) (t : list (expr K))           (* math/operators/binary *)
| ESub (h : expr K) (t : list (expr K))
| EMul (h : expr K) (t : list (expr K))
| EDiv (h : expr K) (t : list (expr K)).
Arguments EConst {K}. Arguments EVar {K}. Arguments EParen {K}. Arguments ENeg {K}.
Arguments EPos {K}. Arguments EAdd {K}. Arguments ESub {K}. Arguments EMul {K}.
Arguments EDiv {K}.

(** [nodes/primitives/*.py] and [nodes/math/assignment.py]: contents of an aperture macro. *)
Inductive prim (K : Type) : Type :=
| PCode0 (s : str)
| PCode1 (exposure diameter cx cy : expr K) (rotation : option (expr K))
| PCode2 (exposure width sx sy ex ey rotation : expr K)
| PCode4 (exposure npoints sx sy : expr K) (points : list (expr K * expr K)) (rotation : expr K)
| PCode5 (exposure nvertices cx cy diameter rotation : expr K)
| PCode6 (cx cy outer ring gap maxrings chthick chlen rotation : expr K)
| PCode7 (uid : Z) (cx cy outer inner gap rotation : expr K)
| PCode20 (exposure width sx sy ex ey rotation : expr K)
| PCode21 (exposure width height cx cy rotation : expr K)
| PCode22 (exposure width height xll yll rotation : expr K)
| PAssign (v : str) (e : expr K).
Arguments PCode0 {K}. Arguments PCode1 {K}. Arguments PCode2 {K}. Arguments PCode4 {K}.
Arguments PCode5 {K}. Arguments PCode6 {K}. Arguments PCode7 {K}. Arguments PCode20 {K}.
Arguments PCode21 {K}. Arguments PCode22 {K}. Arguments PAssign {K}.

(** Template of an aperture definition, [nodes/aperture/AD*.py]. *)
Inductive template (K : Type) : Type :=
| TCircle (diameter : K) (hole : option K)
| TRect (width height : K) (hole : option K)
| TObround (width height : K) (hole : option K)
| TPolygon (outer : K) (vertices : Z) (rotation hole : option K)
| TMacro (name : str) (params : option (list K)).
Arguments TCircle {K}. Arguments TRect {K}. Arguments TObround {K}.
Arguments TPolygon {K}. Arguments TMacro {K}.

Record ad (K : Type) := MkAD { ad_id : str; ad_template : template K }.
Arguments MkAD {K}. Arguments ad_id {K}. Arguments ad_template {K}.

(** [nodes/attribute/T*.py]: every attribute node has a name and textual fields. *)
Record attr := MkAttr { at_name : str; at_fields : list str }.

(** [nodes/properties/FS.py]. *)
Record fs := MkFS {
  fs_zeros : zeros; fs_mode : notation;
  fs_xi : nat; fs_xd : nat; fs_yi : nat; fs_yd : nat }.

(** [nodes/aperture/SR_open.py]: the header keeps the raw texts. *)
Record sropen := MkSR { sr_x : option str; sr_y : option str; sr_i : option str; sr_j : option str }.

(** G codes without arguments, [nodes/g_codes]. *)
Inductive gcode := G01 | G02 | G03 | G36 | G37 | G54 | G55 | G70 | G71 | G74 | G75 | G90 | G91.

Inductive node (K : Type) : Type :=
| NAB (id : str) (body : list (node K))
| NSR (uid : Z) (hdr : sropen) (body : list (node K))
| NAD (a : ad K)
| NAM (name : str) (prims : list (prim K))
| NTA (a : attr) | NTF (a : attr) | NTO (a : attr) | NTD (name : option str)
| ND01 (x y i j : option str)
| ND02 (x y : option str)
| ND03 (x y : option str)
| NDnn (id : str)
| NG (g : gcode)
| NG04 (s : option str)
| NLM (m : mirroring) | NLN (name : str) | NLP (p : polarity) | NLR (r : K) | NLS (s : K)
| NM00 | NM01 | NM02
| NAS (c : axis_corr) | NFS (f : fs) | NIN (name : str) | NIP (p : image_polarity) | NIR (deg : Z)
| NMI (a b : Z) | NMO (u : unit_mode) | NOF (a b : option K) | NSF (a b : K)
| NInvalid (s : str).
Arguments NAB {K}. Arguments NSR {K}. Arguments NAD {K}. Arguments NAM {K}.
Arguments NTA {K}. Arguments NTF {K}. Arguments NTO {K}. Arguments NTD {K}.
Arguments ND01 {K}. Arguments ND02 {K}. Arguments ND03 {K}. Arguments NDnn {K}.
Arguments NG {K}. Arguments NG04 {K}. Arguments NLM {K}. Arguments NLN {K}.
Arguments NLP {K}. Arguments NLR {K}. Arguments NLS {K}. Arguments NM00 {K}.
Arguments NM01 {K}. Arguments NM02 {K}. Arguments NAS {K}. Arguments NFS {K}.
Arguments NIN {K}. Arguments NIP {K}. Arguments NIR {K}. Arguments NMI {K}.
Arguments NMO {K}. Arguments NOF {K}. Arguments NSF {K}. Arguments NInvalid {K}.

(** Induction principles through the nested lists. *)
Section ExprInd.
  Context {K : Type} (P : expr K -> Prop).
  Hypothesis HC : forall c, P (EConst c).
  Hypothesis HV : forall v, P (EVar v).
  Hypothesis HP : forall e, P e -> P (EParen e).
  Hypothesis HN : forall e, P e -> P (ENeg e).
  Hypothesis HPos : forall e, P e -> P (EPos e).
  Hypothesis HA : forall h t, P h -> Forall P t -> P (EAdd h t).
  Hypothesis HS : forall h t, P h -> Forall P t -> P (ESub h t).
  Hypothesis HM : forall h t, P h -> Forall P t -> P (EMul h t).
  Hypothesis HD : forall h t, P h -> Forall P t -> P (EDiv h t).
  Fixpoint expr_ind' (e : expr K) : P e :=
    let all := fix all (l : list (expr K)) : Forall P l :=
      match l with [] => Forall_nil P | x :: r => Forall_cons x (expr_ind' x) (all r) end in
    match e with
    | EConst c => HC c | EVar v => HV v
    | EParen e => HP e (expr_ind' e) | ENeg e => HN e (expr_ind' e) | EPos e => HPos e (expr_ind' e)
    | EAdd h t => HA h t (expr_ind' h) (all t)
    | ESub h t => HS h t (expr_ind' h) (all t)
    | EMul h t => HM h t (expr_ind' h) (all t)
    | EDiv h t => HD h t (expr_ind' h) (all t)
    end.
End ExprInd.

Section NodeInd.
  Context {K : Type} (P : node K -> Prop).
  Hypothesis HAB : forall id body, Forall P body -> P (NAB id body).
  Hypothesis HSR : forall u h body, Forall P body -> P (NSR u h body).
  Hypothesis Hleaf : forall n,
    match n with NAB _ _ => False | NSR _ _ _ => False | _ => True end -> P n.
  Fixpoint node_ind' (n : node K) : P n :=
    let all := fix all (l : list (node K)) : Forall P l :=
      match l with [] => Forall_nil P | x :: r => Forall_cons x (node_ind' x) (all r) end in
    match n with
    | NAB id body => HAB id body (all body)
    | NSR u h body => HSR u h body (all body)
    | n' => Hleaf n' I
    end.
End NodeInd.
