(** Specification vocabulary for C16 in files that define codes again: pieces of walks, and what
    a pasted layer consists of. *)
From Verif Require Import Base Num Dict Ast StateModel StateSpec GeomModel CompilerModel LayerSpec DrawSpec FlashSpec.

Section Spec.
  Context {K : Type} {NK : Num K}.

  (** From one point of a walk (see [named_point]) to a later one. *)
  Section Pieces.
    Context {X : Type} (H : hooks K X) (ABs : str -> Prop).
    Inductive walk (pre0 : list (node K)) (v0 : visitor K X) : list (node K) -> visitor K X -> Prop :=
    | wk_here : walk pre0 v0 pre0 v0
    | wk_leaf pre v n v' : walk pre0 v0 pre v -> match n with NAB _ _ | NSR _ _ _ => False | _ => True end ->
        visit_leaf H n v = Done v' \/ visit_leaf H n v = Stop v' -> walk pre0 v0 (pre ++ [n]) v'
    | wk_ab_enter pre v id : walk pre0 v0 pre v -> ABs id -> walk pre0 v0 pre (ab_enter H id v)
    | wk_ab_leave pre v id : walk pre0 v0 pre v -> ABs id -> walk pre0 v0 (pre ++ [NAB id []]) (ab_leave H id v)
    | wk_sr_enter pre v uid : walk pre0 v0 pre v -> walk pre0 v0 pre (snd (sr_enter H uid v))
    | wk_sr_leave pre v uid t hdr v' : walk pre0 v0 pre v ->
        sr_leave H (lit "%%SR%" ++ z_repr uid ++ lit "%" ++ z_repr t) hdr v = Done v' -> walk pre0 v0 pre v'.
  End Pieces.

  (** The layers shown by layer [k]: itself and those it pastes. *)
  Inductive shows (bs : dict (buffer K)) : str -> str -> Prop :=
  | sh_self k b : d_get k bs = Some b -> shows bs k k
  | sh_paste k b src j : d_get k bs = Some b -> pastes (bf_cmds b) src -> shows bs src j -> shows bs k j.

  (** An aperture defined by AD is selected. *)
  Definition selects (pre : list (node K)) (id : str) : Prop :=
    latest_selection pre = Some id /\ In id (ad_codes pre).

  (** The code was flashed under the transformation [m]. *)
  Definition flashed_under (pre : list (node K)) (id : str) (m : mat K) : Prop := exists p x y q,
    pre = p ++ ND03 x y :: q /\ latest_selection p = Some id /\ matrix_at p = m.
End Spec.
