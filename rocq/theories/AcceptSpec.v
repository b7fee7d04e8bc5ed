(** Specification for C82: which files the compiler accepts. *)
From Coq Require Import Reals.
From Verif Require Import Base Num NumReal Dict CoordModel CoordSpec Ast StateModel StateSpec ExprSpec MacroSpec GeomModel CompilerModel
  LayerSpec DrawSpec FlashSpec PlaceSpec.
Open Scope R_scope.

(** *** Coordinates: digits with an optional sign, no more of them than the format gives. *)
Definition readable (f : option cfmt) (is_x : bool) (t : option str) : Prop :=
  match t with
  | None => True
  | Some t => exists c sg ds v, f = Some c /\ SignedText sg ds t /\ spec_value ds = Some v /\ ds <> [] /\
      (length ds <= if is_x then cf_xi c + cf_xd c else cf_yi c + cf_yd c)%nat
  end.

(** *** Macros: every expression that is needed has a value, and the figures exist. *)
Definition has (env : str -> option R) (e : expr R) : Prop := exists k, value env (meaning e) k.
(** The rings of a moire of diameter [o]: the [k]-th one has room for its hole. *)
Definition rings_fit (o w g n : R) : Prop :=
  let d (k : nat) := o - INR k * (2 * g + 2 * w) in
  forall k, INR (S k) <= n -> (forall j, (j <= k)%nat -> w < d j) -> 2 * w < d k.
Definition fine_prim (env : str -> option R) (p : prim R) : Prop :=
  let all := Forall (has env) in
  let val e k := value env (meaning e) k in
  match p with
  | PCode0 _ => True
  | PCode1 a b c d r => all (a :: b :: c :: d :: match r with Some r => [r] | None => [] end)
  | PCode2 a b c d e f r | PCode20 a b c d e f r => all [a; b; c; d; e; f; r]
  | PCode4 a _ c d pts r => all (a :: c :: d :: flat_map (fun q => [fst q; snd q]) pts ++ [r])
  | PCode5 a n c d e r => all [a; n; c; d; e; r] /\ forall k, val n k -> 3 <= k
  | PCode6 x y o w g n t l r => all [x; y; o; w; g; n; t; l; r] /\
      forall o' w' g' n', val o o' -> val w w' -> val g g' -> val n n' -> 0 < w' -> 0 < o' -> rings_fit o' w' g' n'
  | PCode7 _ x y o i g r => all [x; y; o; i] /\
      forall o' i', val o o' -> val i i' -> i' < o' -> all [g; r] /\ forall g', val g g' -> g' * sqrt 2 < i' -> 0 < i'
  | PCode21 a b c d e r | PCode22 a b c d e r => all [a; b; c; d; e; r]
  | PAssign _ e => has env e
  end.
(** A macro body, assignments taking effect for what follows them. *)
Fixpoint runs (env : str -> option R) (ps : list (prim R)) : Prop :=
  match ps with
  | [] => True
  | PAssign v e :: r => exists k, value env (meaning e) k /\ runs (upd v (Some k) env) r
  | p :: r => fine_prim env p /\ runs env r
  end.

(** *** Commands, given the commands executed before them *)
(** The pen can draw: it fills a contour, draws nothing (single quadrant arcs are ignored), or
    has a tip of known width. *)
Definition pen_ready (pre : list (node R)) : Prop :=
  in_region pre = true \/
  (plot_of pre <> PmLinear /\ last_set sets_arc SingleQuadrant pre = SingleQuadrant) \/
  exists id a, latest_selection pre = Some id /\ latest_def id pre = Some (DefAD a) /\
    match ad_template a with TMacro _ _ => False | _ => True end.
Definition acceptable (pre : list (node R)) (n : node R) : Prop :=
  let rx := readable (format_of pre) true in let ry := readable (format_of pre) false in
  match n with
  | ND01 x y i j => rx x /\ ry y /\ rx i /\ ry j /\ pen_ready pre
  | ND02 x y => rx x /\ ry y
  | ND03 x y => rx x /\ ry y /\ latest_selection pre <> None
  | NDnn id => latest_def id pre <> None
  | NG G37 => last_set sets_region true pre = true        (* no second G37 after a G37 *)
  | NAD a =>
      match ad_template a with
      | TPolygon _ n _ _ => (3 <= n)%Z
      | TMacro name ps => exists prims env, macros_of pre name = Some prims /\
          binds env (match ps with Some l => l | None => [] end) /\ runs env prims
      | _ => True
      end
  | _ => True
  end.
Definition accepted (ips : bool) (ns : list (node R)) : Prop :=
  forall pre n post, executed_file ips ns = pre ++ n :: post -> acceptable pre n.

(** *** Step and repeat: positive counts and decimal distances. *)
Definition fine_header (h : sropen) : Prop :=
  (forall t, sr_x h = Some t \/ sr_y h = Some t -> exists z, int_text t z /\ (0 < z)%Z) /\
  (forall t, sr_i h = Some t \/ sr_j h = Some t -> exists q, dec_text t q).
(** The headers of the repetitions that are carried out: those whose body is executed to its end. *)
Definition done_list (f : node R -> list sropen) :=
  fix go (ns : list (node R)) : list sropen :=
  match ns with [] => [] | n :: r => f n ++ if snd (executed n) then [] else go r end.
Fixpoint done_sr (n : node R) : list sropen :=
  match n with
  | NAB _ body => done_list done_sr body
  | NSR _ h body => done_list done_sr body ++ (if snd (exec_list executed body) then [] else [h])
  | _ => []
  end.
Fixpoint done_file (stops : bool) (ns : list (node R)) : list sropen :=
  match ns with
  | [] => []
  | n :: r => done_sr n ++ (if snd (executed n) && stops then [] else done_file stops r)
  end.
Definition repeated (ips : bool) (ns : list (node R)) : Prop := Forall fine_header (done_file ips ns).
