(** Specification vocabulary for C21: what the expressions of a macro denote under sequential
    assignment, and what an aperture layer shows. *)
From Verif Require Import Base Num Dict Ast StateModel ExprSpec GeomModel CompilerModel.

Section Spec.
  Context {K : Type} {NK : Num K}.

  (** The parameters are called $1, $2, ...; nothing else is bound. *)
  Definition binds (env : str -> option K) (params : list K) : Prop :=
    forall v k, env v = Some k <->
      exists i, v = lit "$" ++ z_repr (Z.of_nat (S i)) /\ nth_error params i = Some k.

  (** [e'] is the constant that [e] denotes, or a variable free expression failing alike. *)
  Definition constant (env : str -> option K) (e e' : expr K) : Prop :=
    (exists k, value env (meaning e) k /\ e' = EConst k) \/
    (exists x, fails env (meaning e) x /\ fails (fun _ => None) (meaning e') x).

  (** The same primitive with related expressions. *)
  Inductive prim_like (R : expr K -> expr K -> Prop) : prim K -> prim K -> Prop :=
  | pl_0 s : prim_like R (PCode0 s) (PCode0 s)
  | pl_1 a b c d a' b' c' d' : R a a' -> R b b' -> R c c' -> R d d' ->
      prim_like R (PCode1 a b c d None) (PCode1 a' b' c' d' None)
  | pl_1r a b c d e a' b' c' d' e' : R a a' -> R b b' -> R c c' -> R d d' -> R e e' ->
      prim_like R (PCode1 a b c d (Some e)) (PCode1 a' b' c' d' (Some e'))
  | pl_2 a b c d e f g a' b' c' d' e' f' g' :
      R a a' -> R b b' -> R c c' -> R d d' -> R e e' -> R f f' -> R g g' ->
      prim_like R (PCode2 a b c d e f g) (PCode2 a' b' c' d' e' f' g')
  | pl_20 a b c d e f g a' b' c' d' e' f' g' :
      R a a' -> R b b' -> R c c' -> R d d' -> R e e' -> R f f' -> R g g' ->
      prim_like R (PCode20 a b c d e f g) (PCode20 a' b' c' d' e' f' g')
  | pl_4 a b c d l r a' b' c' d' l' r' : R a a' -> R b b' -> R c c' -> R d d' ->
      Forall2 (fun p p' => R (fst p) (fst p') /\ R (snd p) (snd p')) l l' -> R r r' ->
      prim_like R (PCode4 a b c d l r) (PCode4 a' b' c' d' l' r')
  | pl_5 a b c d e f a' b' c' d' e' f' : R a a' -> R b b' -> R c c' -> R d d' -> R e e' -> R f f' ->
      prim_like R (PCode5 a b c d e f) (PCode5 a' b' c' d' e' f')
  | pl_6 a b c d e f g h i a' b' c' d' e' f' g' h' i' :
      R a a' -> R b b' -> R c c' -> R d d' -> R e e' -> R f f' -> R g g' -> R h h' -> R i i' ->
      prim_like R (PCode6 a b c d e f g h i) (PCode6 a' b' c' d' e' f' g' h' i')
  | pl_7 u a b c d e f a' b' c' d' e' f' : R a a' -> R b b' -> R c c' -> R d d' -> R e e' -> R f f' ->
      prim_like R (PCode7 u a b c d e f) (PCode7 u a' b' c' d' e' f')
  | pl_21 a b c d e f a' b' c' d' e' f' : R a a' -> R b b' -> R c c' -> R d d' -> R e e' -> R f f' ->
      prim_like R (PCode21 a b c d e f) (PCode21 a' b' c' d' e' f')
  | pl_22 a b c d e f a' b' c' d' e' f' : R a a' -> R b b' -> R c c' -> R d d' -> R e e' -> R f f' ->
      prim_like R (PCode22 a b c d e f) (PCode22 a' b' c' d' e' f').

  (** [unfolded env ps ps']: the macro body [ps] with every expression replaced by its value,
      assignments taking effect for the primitives after them only.  An assignment without
      value ends the body with its failure. *)
  Inductive unfolded : (str -> option K) -> list (prim K) -> list (prim K) -> Prop :=
  | un_nil env : unfolded env [] []
  | un_prim env p p' r r' : prim_like (constant env) p p' -> unfolded env r r' ->
      unfolded env (p :: r) (p' :: r')
  | un_assign env env' v e k r r' : value env (meaning e) k ->
      (forall w, env' w = if str_eqb w v then Some k else env w) ->
      unfolded env' r r' -> unfolded env (PAssign v e :: r) r'
  | un_fail env v e e' r x : fails env (meaning e) x -> fails (fun _ => None) (meaning e') x ->
      unfolded env (PAssign v e :: r) [PAssign v e'].

  (** What a layer shows, its nested layers replaced by what they hold. *)
  Definition shown1 (bs : dict (buffer K)) (d : draw K) :=
    match d with
    | DShape s => inl s
    | DPaste p => inr (pa_center p, pa_neg p, pa_meta p, option_map bf_cmds (d_get (pa_src p) bs))
    end.
  Definition shown (id : str) (x : cstate K) :=
    option_map (fun b => map (shown1 (c_buffers x)) (bf_cmds b)) (d_get id (c_buffers x)).
End Spec.
