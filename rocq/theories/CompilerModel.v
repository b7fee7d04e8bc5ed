(** Model of [Compiler], [gerber/compiler/compiler.py], as callbacks of the state tracker.

    Parameters: [include_metadata]; [clock i] is the i-th reading of [time.time()] rounded to
    seconds; [iter id l] is the order in which Python iterates the set [depends_on] of buffer
    [id] holding the elements [l] (arbitrary, it depends on string hashing). *)
From Verif Require Import Base Num Dict CoordModel Ast StateModel GeomModel ExprModel.

(** VM commands, [vm/commands/layer.py] 16-33 and [vm/vm.py] 27. *)
Inductive cmd (K : Type) :=
| KStart (id : str) (b : option (box K)) (origin : vec K)
| KDraw (d : draw K)
| KEnd.
Arguments KStart {K}. Arguments KDraw {K}. Arguments KEnd {K}.

(** [CommandBuffer] 79-110; [box] is always [None] and [origin] always the null vector. *)
Record buffer (K : Type) := MkBuf { bf_id : str; bf_cmds : list (draw K); bf_deps : list str }.
Arguments MkBuf {K}. Arguments bf_id {K}. Arguments bf_cmds {K}. Arguments bf_deps {K}.

(** Compiler attributes, 129-137; the top of [_buffer_stack] is the head of [c_stack].
    [c_stamps] (not in the code) lists the ids made from a clock reading so far, latest first;
    its length is the number of readings. *)
Record cstate (K : Type) := MkC {
  c_buffers : dict (buffer K); c_stack : list str; c_contour : option (list (seg K)); c_stamps : list str }.
Arguments MkC {K}. Arguments c_buffers {K}. Arguments c_stack {K}. Arguments c_contour {K}.
Arguments c_stamps {K}.

Definition main_id : str := lit "%main%".

(** Decimal texts in SR headers ([int(..)] and [float(..)]): optional sign, digits, optional
    fraction.  Other spellings accepted by Python (exponents, underscores, inf) do not pass
    the grammar. *)
Definition take_sign (s : str) : Z * str :=
  match s with
  | c :: r => if Ascii.eqb c ch_minus then ((-1)%Z, r)
              else if Ascii.eqb c ch_plus then (1%Z, r) else (1%Z, s)
  | [] => (1%Z, s)
  end.
Definition parse_int (s : str) : option Z :=
  let '(sg, d) := take_sign s in
  match d with
  | [] => None
  | _ => if forallb is_digit d then Some (sg * digits_value d)%Z else None
  end.
Definition parse_dec (s : str) : option Q :=
  let '(sg, d) := take_sign s in
  match split_on ch_dot d with
  | [i] => match i with [] => None | _ => if forallb is_digit i then Some (inject_Z (sg * digits_value i)) else None end
  | [i; f] =>
      match i ++ f with
      | [] => None
      | all => if forallb is_digit all
               then Some (Qmake (sg * digits_value all) (Z.to_pos (10 ^ Z.of_nat (length f))))
               else None
      end
  | _ => None
  end.

Section Compiler.
  Context {K : Type} {NK : Num K} (include_metadata : bool) (clock : nat -> Z)
          (iter : str -> list str -> list str).

  (** [_create_aperture_buffer] 286-297, [_create_main_buffer] 173-186 *)
  Definition empty_buffer (id : str) : buffer K := MkBuf id [] [].
  Definition compiler_init : cstate K :=
    MkC [(main_id, empty_buffer main_id)] [main_id] (Some []) [].

  Definition set_buffer (b : buffer K) (x : cstate K) : cstate K :=
    MkC (d_set (bf_id b) b (c_buffers x)) (c_stack x) (c_contour x) (c_stamps x).
  Definition set_buffers (bs : dict (buffer K)) (x : cstate K) : cstate K :=
    MkC bs (c_stack x) (c_contour x) (c_stamps x).
  Definition set_contour (c : option (list (seg K))) (x : cstate K) : cstate K :=
    MkC (c_buffers x) (c_stack x) c (c_stamps x).
  Definition get_buffer (id : str) (bs : dict (buffer K)) : result exc (buffer K) :=
    match d_get id bs with Some b => Ok b | None => Err EKeyError end.

  (** [append_shape] 103-105, [append_paste] 107-110: [depends_on] is a set. *)
  Definition add_dep (d : str) (l : list str) : list str :=
    if existsb (str_eqb d) l then l else l ++ [d].
  Definition append_draw (d : draw K) (b : buffer K) : buffer K :=
    match d with
    | DShape _ => MkBuf (bf_id b) (bf_cmds b ++ [d]) (bf_deps b)
    | DPaste p => MkBuf (bf_id b) (bf_cmds b ++ [d]) (add_dep (pa_src p) (bf_deps b))
    end.
  Definition append_draws (ds : list (draw K)) (b : buffer K) : buffer K :=
    fold_left (fun b d => append_draw d b) ds b.
  (** [_append_shape_to_current_buffer] 158-159, [_append_paste_to_current_buffer] 161-162,
      [_expand_buffer_to_current_buffer] 164-171.
      The buffer object is found through its key. *)
  Definition append_current (d : draw K) (x : cstate K) : result exc (cstate K) :=
    match c_stack x with
    | [] => Err EKeyError
    | id :: _ =>
        let* b := get_buffer id (c_buffers x) in
        Ok (set_buffers (d_set id (append_draw d b) (c_buffers x)) x)
    end.
  Fixpoint append_all (ds : list (draw K)) (x : cstate K) : result exc (cstate K) :=
    match ds with
    | [] => Ok x
    | d :: r => let* x := append_current d x in append_all r x
    end.

  (** [_get_aperture_metadata] 254-259, [_get_object_metadata] 396-401, [_get_file_metadata] 793-798 *)
  Definition meta_of (d : dict attr) : meta := if include_metadata then Some d else None.

  (** [_get_line_thickness] 194-212 *)
  Definition line_thickness (dir : vec K) (s : state K) : result exc K :=
    let* a := current_aperture s in
    let oriented w h :=
      let ang := angle_between dir unit_x in
      v_len (MkVec (n_mul w (n_cosd (n_opp ang))) (n_mul h (n_sind (n_opp ang)))) in
    match a with
    | ApAB _ => Err ENotImplemented
    | ApAD a =>
        match ad_template a with
        | TCircle d _ => Ok d
        | TRect w h _ => Ok (oriented w h)
        | TObround w h _ => Ok (oriented w h)
        | TPolygon d _ _ _ => Ok d
        | TMacro _ _ => Err ENotImplemented
        end
    end.

  Definition start_point (s : state K) : vec K := MkVec (s_cur_x s) (s_cur_y s).
  Definition end_point (s : state K) : vec K := MkVec (coordinate_x s) (coordinate_y s).
  Definition arc_center (s : state K) : vec K :=
    MkVec (n_add (s_cur_x s) (coordinate_i s)) (n_add (s_cur_y s) (coordinate_j s)).

  (** [on_draw_line] 403-442 *)
  Definition draw_line (s : state K) (x : cstate K) : result exc (cstate K) :=
    let m := meta_of (s_obj_attrs s) in
    let neg := is_negative s in
    let a := start_point s in let b := end_point s in
    let* th := line_thickness b s in
    append_all [DShape (new_circle a th neg m); DShape (new_line a b th neg m);
                DShape (new_circle b th neg m)] x.

  (** [_on_draw_arc_mq] 448-519: [cw] selects the factory *)
  Definition arc_factory (cw : bool) := if cw then new_cw_arc (K := K) else new_ccw_arc.
  Definition draw_arc (cw : bool) (s : state K) (x : cstate K) : result exc (cstate K) :=
    let m := meta_of (s_obj_attrs s) in
    let neg := is_negative s in
    let a := start_point s in let b := end_point s in let c := arc_center s in
    let* th := line_thickness b s in
    let mk p q := DShape (arc_factory cw p q c th neg m) in
    if v_eqb a b then
      let len := v_len (MkVec (coordinate_i s) (coordinate_j s)) in
      let p := MkVec (n_sub (vx c) len) (vy c) in
      let q := MkVec (n_add (vx c) len) (vy c) in
      append_all [DShape (new_circle a th neg m); mk p q; mk q p; DShape (new_circle q th neg m)] x
    else
      append_all [DShape (new_circle a th neg m); mk a b; DShape (new_circle b th neg m)] x.

  (** [on_in_region_draw_line] 532-545, [_on_in_region_draw_arc_mq] 553-597 *)
  Definition region_line (s : state K) (x : cstate K) : result exc (cstate K) :=
    match c_contour x with
    | None => Err EContourBufferNotSet
    | Some l => Ok (set_contour (Some (l ++ [SLine (start_point s) (end_point s)])) x)
    end.
  Definition region_arc (cw : bool) (s : state K) (x : cstate K) : result exc (cstate K) :=
    match c_contour x with
    | None => Err EContourBufferNotSet
    | Some l =>
        let a := start_point s in let b := end_point s in let c := arc_center s in
        let new := if v_eqb a b then
                     let e := MkVec (n_add (vx c) (coordinate_i s)) (n_add (vy c) (coordinate_j s)) in
                     [SArc a e c cw; SArc e a c cw]
                   else [SArc a b c cw] in
        Ok (set_contour (Some (l ++ new)) x)
    end.

  (** All draw callbacks.  The single quadrant ones are not overridden and do nothing. *)
  Definition on_draw (h : d01_handler) (s : state K) (x : cstate K) : result exc (cstate K) :=
    match h with
    | HDrawLine => draw_line s x
    | HDrawCwMq => draw_arc true s x
    | HDrawCcwMq => draw_arc false s x
    | HRegionLine => region_line s x
    | HRegionCwMq => region_arc true s x
    | HRegionCcwMq => region_arc false s x
    | HDrawCwSq | HDrawCcwSq | HRegionCwSq | HRegionCcwSq => Ok x
    end.

  (** [on_start_region] 527-530, [on_flush_region] 615-631, [on_end_region] 633-636.
      [_get_region_metadata] 605-613 always returns [None]. *)
  Definition start_region (s : state K) (x : cstate K) : cstate K := set_contour (Some []) x.
  Definition flush_region (s : state K) (x : cstate K) : result exc (cstate K) :=
    match c_contour x with
    | None => Err EContourBufferNotSet
    | Some [] => Ok (set_contour (Some []) x)
    | Some l =>
        let* x := append_current (DShape (MkShape l (is_negative s) None)) x in
        Ok (set_contour (Some []) x)
    end.
  Definition end_region (s : state K) (x : cstate K) : cstate K := set_contour None x.

  (** [_get_aperture_buffer] 656-665: mirroring @ rotation @ scale *)
  Definition mirror_x (m : mirroring) : bool := match m with MirX | MirXY => true | _ => false end.
  Definition mirror_y (m : mirroring) : bool := match m with MirY | MirXY => true | _ => false end.
  Definition state_matrix (s : state K) : mat K :=
    let t := s_tr s in
    mmul (mmul (mreflect (mirror_x (tr_mirroring t)) (mirror_y (tr_mirroring t)))
               (mrotate (tr_rotation t)))
         (mscale (tr_scaling t) (tr_scaling t)).

  (** [_get_buffer_with_transform] 667-681 and [_apply_transform_to_buffer] 683-715, mutually
      recursive; the fuel stands for Python's recursion limit. *)
  Definition layer_key (id : str) (m : mat K) : str := id ++ lit "%" ++ mtag m.
  Fixpoint transformed (fuel : nat) (m : mat K) (id : str) (bs : dict (buffer K))
    : result exc (buffer K * dict (buffer K)) :=
    match d_get (layer_key id m) bs with
    | Some b => Ok (b, bs)
    | None =>
        match fuel with
        | O => Err EOutOfFuel
        | S f =>
            let* base := get_buffer id bs in
            let* r :=
              (fix go (cs : list (draw K)) (acc : list (draw K)) (deps : list str) (bs : dict (buffer K))
                 : result exc (list (draw K) * list str * dict (buffer K)) :=
                 match cs with
                 | [] => Ok (acc, deps, bs)
                 | DShape sh :: r => go r (acc ++ [DShape (shape_transform m sh)]) deps bs
                 | DPaste p :: r =>
                     let* bb := transformed f m (pa_src p) bs in
                     let '(b, bs) := bb in
                     go r (acc ++ [DPaste (MkPaste (bf_id b) (v_transform m (pa_center p)) (pa_neg p) (pa_meta p))])
                        (add_dep (bf_id b) deps) bs
                 end) (bf_cmds base) [] [] bs in
            let '(cmds, deps, bs) := r in
            let b := MkBuf (layer_key id m) cmds deps in
            Ok (b, d_set (layer_key id m) b bs)
        end
    end.
  Definition aperture_buffer (s : state K) (id : str) (x : cstate K) : result exc (buffer K * cstate K) :=
    let* r := transformed (S (length (c_buffers x))) (state_matrix s) id (c_buffers x) in
    let '(b, bs) := r in Ok (b, set_buffers bs x).

  (** [_on_flash_aperture] 642-654 *)
  Definition flash_aperture (id : str) (s : state K) (x : cstate K) : result exc (cstate K) :=
    let* r := aperture_buffer s id x in
    let '(b, x) := r in
    append_current (DPaste (MkPaste (bf_id b) (end_point s) (is_negative s) (meta_of (s_obj_attrs s)))) x.

  (** [_apply_transform_to_buffer_non_recursive_tmp] 743-774 *)
  Definition shift_draw (m : mat K) (d : draw K) : draw K :=
    match d with
    | DShape sh => DShape (shape_transform m sh)
    | DPaste p => DPaste (MkPaste (pa_src p) (v_transform m (pa_center p)) (pa_neg p) (pa_meta p))
    end.

  (** [on_flash_block] 733-741 *)
  Definition flash_block (id : str) (s : state K) (x : cstate K) : result exc (cstate K) :=
    let* r := aperture_buffer s id x in
    let '(b, x) := r in
    append_all (map (shift_draw (mtranslate (coordinate_x s) (coordinate_y s))) (bf_cmds b)) x.

  (** The cached callback may be of another kind than the aperture it is given: then the
      attribute access fails. *)
  Definition on_flash (h : d03_handler) (a : aperture K) (s : state K) (x : cstate K)
    : result exc (cstate K) :=
    match h, a with
    | FBlock, ApAB id => flash_block id s x
    | FBlock, ApAD _ => Err EAttributeError
    | _, ApAD a => flash_aperture (ad_id a) s x
    | _, ApAB _ => Err EAttributeError
    end.

  (** [on_ab] 214-223 *)
  Definition ab_open (id : str) (s : state K) (x : cstate K) : cstate K :=
    let x := set_buffer (empty_buffer id) x in
    MkC (c_buffers x) (id :: c_stack x) (c_contour x) (c_stamps x).
  Definition pop (x : cstate K) : cstate K :=
    MkC (c_buffers x) (tl (c_stack x)) (c_contour x) (c_stamps x).
  Definition ab_close (id : str) (s : state K) (x : cstate K) : cstate K := pop x.

  (** [on_sr] 225-252: the id is made of the node identity and the time *)
  Definition stamp (prefix : str) (uid : Z) (x : cstate K) : str :=
    prefix ++ z_repr uid ++ lit "%" ++ z_repr (clock (length (c_stamps x))).
  Definition sr_open (uid : Z) (s : state K) (x : cstate K) : str * cstate K :=
    let id := stamp (lit "%%SR%") uid x in
    let x := set_buffer (empty_buffer id) x in
    (id, MkC (c_buffers x) (id :: c_stack x) (c_contour x) (id :: c_stamps x)).

  (** [SRopen] properties, [nodes/aperture/SR_open.py] 25-47 *)
  Definition sr_count (t : option str) : result exc nat :=
    match t with
    | None => Ok 1%nat
    | Some t => match parse_int t with
                | None => Err EValueError
                | Some z => if (0 <? z)%Z then Ok (Z.to_nat z) else Err EAssertionError
                end
    end.
  Definition sr_delta (t : option str) : result exc K :=
    match t with
    | None => Ok n0
    | Some t => match parse_dec t with None => Err EValueError | Some q => Ok (n_of_Q q) end
    end.
  Definition sr_close (tmp : str) (h : sropen) (s : state K) (x : cstate K) : result exc (cstate K) :=
    let x := pop x in
    let* buf := get_buffer tmp (c_buffers x) in
    let* dx := sr_delta (sr_i h) in
    let* dy := sr_delta (sr_j h) in
    let* nx := sr_count (sr_x h) in
    let* ny := sr_count (sr_y h) in
    let copy ix iy :=
      map (shift_draw (mtranslate (n_add (coordinate_x s) (n_mul (n_of_Z (Z.of_nat ix)) dx))
                                  (n_add (coordinate_y s) (n_mul (n_of_Z (Z.of_nat iy)) dy))))
          (bf_cmds buf) in
    let* x := append_all (flat_map (fun ix => flat_map (copy ix) (seq 0 ny)) (seq 0 nx)) x in
    Ok (set_buffers (d_del tmp (c_buffers x)) x).

  (** *** Apertures, [on_adc] 261-284, [on_adr] 299-323, [on_ado] 325-349, [on_adp] 351-376 *)
  Definition hole_of (hole : option K) (limit : K -> K) (m : meta) : list (draw K) :=
    match hole with
    | Some h => if n_ltb n0 h then [DShape (new_circle (MkVec n0 n0) (limit h) true m)] else []
    | None => []
    end.

  (** *** Macros: [MacroEvalVisitor] 818-1125.
      The macro state: scope, the aperture buffer's commands and dependencies, the compiler. *)
  Record mstate := MkM { ms_scope : dict K; ms_buf : buffer K; ms_c : cstate K }.
  Definition ms_append (d : draw K) (m : mstate) : mstate :=
    MkM (ms_scope m) (append_draw d (ms_buf m)) (ms_c m).
  Definition ms_appends (ds : list (draw K)) (m : mstate) : mstate :=
    fold_left (fun m d => ms_append d m) ds m.
  Definition rot_shape (r : K) (s : shape K) : shape K := shape_transform (mrotate r) s.

  (** The ring loop of [on_code_6], 967-985 *)
  Fixpoint rings (n : nat) (c : vec K) (ring delta outer inner : K) : result exc (list (shape K)) :=
    match n with
    | O => Ok []
    | S n' =>
        if n_leb outer ring then Ok [new_circle c outer false None]
        else
          let* r := new_ring c outer inner false None in
          let* rest := rings n' c ring delta (n_sub outer delta) (n_sub inner delta) in
          Ok (r ++ rest)
    end.

  Definition on_prim (md : meta) (p : prim K) (m : mstate) : result exc mstate :=
    let ev := eval (ms_scope m) in
    let neg e := n_eqb e n0 in
    let one s := Ok (ms_append (DShape s) m) in
    match p with
    | PCode0 _ => Ok m
    | PCode1 e d cx cy rot =>                                    (* on_code_1 837-855 *)
        let* e := ev e in let* d := ev d in let* cx := ev cx in let* cy := ev cy in
        let s := new_circle (MkVec cx cy) d (neg e) md in
        match rot with
        | None => one s
        | Some r => let* r := ev r in one (rot_shape r s)
        end
    | PCode2 e w sx sy ex ey rot | PCode20 e w sx sy ex ey rot =>  (* _on_vector_line 862-879 *)
        let* e := ev e in let* w := ev w in let* sx := ev sx in let* sy := ev sy in
        let* ex := ev ex in let* ey := ev ey in let* r := ev rot in
        one (rot_shape r (new_line (MkVec sx sy) (MkVec ex ey) w (neg e) md))
    | PCode4 e _ sx sy pts rot =>                                (* on_code_4 881-898 *)
        let* e := ev e in let* sx := ev sx in let* sy := ev sy in
        let* ps := (fix go (l : list (expr K * expr K)) : result exc (list (vec K)) :=
                      match l with
                      | [] => Ok []
                      | (a, b) :: r => let* a := ev a in let* b := ev b in let* r := go r in Ok (MkVec a b :: r)
                      end) pts in
        let* r := ev rot in
        one (rot_shape r (new_connected_points (MkVec sx sy) ps (neg e) md))
    | PCode5 e nv cx cy d rot =>                                 (* on_code_5 900-921 *)
        let* e := ev e in let* nv := ev nv in let* cx := ev cx in let* cy := ev cy in
        let* d := ev d in let* r := ev rot in
        let* s := new_polygon (MkVec cx cy) d (n_trunc nv) r (neg e) md in
        one (rot_shape r s)
    | PCode6 cx cy outer ring gap maxr cht chl rot =>            (* on_code_6 923-994 *)
        let* cx := ev cx in let* cy := ev cy in let* outer := ev outer in let* ring := ev ring in
        let* gap := ev gap in let* maxr := ev maxr in let* cht := ev cht in let* chl := ev chl in
        let* r := ev rot in
        let half := n_div chl n2 in
        let cross :=
          if n_ltb n0 chl && n_ltb n0 cht then
            [new_line (MkVec cx (n_sub cy half)) (MkVec cx (n_add cy half)) cht false md;
             new_line (MkVec (n_sub cx half) cy) (MkVec (n_add cx half) cy) cht false md]
          else [] in
        let* rs :=
          if n_ltb n0 ring && n_ltb n0 outer && n_ltb n0 maxr then
            rings (Z.to_nat (n_trunc maxr)) (MkVec cx cy) ring
              (n_add (n_mul gap n2) (n_mul ring n2)) outer (n_sub outer (n_mul ring n2))
          else Ok [] in
        Ok (ms_appends (map (fun s => DShape (rot_shape r s)) (cross ++ rs)) m)
    | PCode7 uid cx cy outer inner gap rot =>                    (* on_code_7 996-1071 *)
        let* cx := ev cx in let* cy := ev cy in let* outer := ev outer in let* inner := ev inner in
        if n_leb outer inner then Ok m
        else
          let* gap := ev gap in let* r := ev rot in
          let th := n_sub outer inner in
          if n_leb inner (n_mul gap (n_sqrt n2)) then Ok m
          else if n_leb th n0 then Ok m
          else
            let c := ms_c m in
            let id := stamp (lit "%%Code7%") uid c in
            let* ring := new_ring (MkVec n0 n0) outer inner false md in
            let rd := n_add (n_div outer n2) (n_div th (n_of_Q (199 # 100))) in
            let shapes :=
              ring ++ [new_line (MkVec (n_sub n0 rd) n0) (MkVec (n_add n0 rd) n0) gap true md;
                       new_line (MkVec n0 (n_sub n0 rd)) (MkVec n0 (n_add n0 rd)) gap true md] in
            let buf := append_draws (map (fun s => DShape (rot_shape r s)) shapes) (empty_buffer id) in
            let c := set_buffer buf (MkC (c_buffers c) (c_stack c) (c_contour c) (id :: c_stamps c)) in
            Ok (ms_append (DPaste (MkPaste id (v_transform (mrotate r) (MkVec cx cy)) false None))
                  (MkM (ms_scope m) (ms_buf m) c))
    | PCode21 e w h cx cy rot =>                                 (* on_code_21 1078-1098 *)
        let* e := ev e in let* w := ev w in let* h := ev h in let* cx := ev cx in let* cy := ev cy in
        let* r := ev rot in
        one (rot_shape r (new_rectangle (MkVec cx cy) w h (neg e) md))
    | PCode22 e w h x y rot =>                                   (* on_code_22 1100-1120 *)
        let* e := ev e in let* w := ev w in let* h := ev h in let* x := ev x in let* y := ev y in
        let* r := ev rot in
        one (rot_shape r (new_rectangle (MkVec (n_add x (n_div w n2)) (n_add y (n_div h n2))) w h (neg e) md))
    | PAssign v e =>                                             (* on_assignment 1122-1125 *)
        let* k := ev e in Ok (MkM (d_set v k (ms_scope m)) (ms_buf m) (ms_c m))
    end.
  Fixpoint on_prims (md : meta) (ps : list (prim K)) (m : mstate) : result exc mstate :=
    match ps with
    | [] => Ok m
    | p :: r => let* m := on_prim md p m in on_prims md r m
    end.

  (** [on_ad_macro] 378-394: parameters are bound to [$1], [$2], ... *)
  Definition macro_scope (params : option (list K)) : dict K :=
    match params with
    | None => []
    | Some l => combine (map (fun i => lit "$" ++ z_repr (Z.of_nat i)) (seq 1 (length l))) l
    end.

  Definition on_aperture (a : ad K) (s : state K) (x : cstate K) : result exc (cstate K) :=
    let m := meta_of (s_ap_attrs s) in
    let o := MkVec n0 n0 in
    let finish ds := Ok (set_buffer (append_draws ds (empty_buffer (ad_id a))) x) in
    match ad_template a with
    | TCircle d hole => finish (DShape (new_circle o d false m) :: hole_of hole (fun h => n_min h d) m)
    | TRect w h hole => finish (DShape (new_rectangle o w h false m)
                                :: hole_of hole (fun k => n_min (n_min k w) h) m)
    | TObround w h hole => finish (DShape (new_obround o w h false m)
                                :: hole_of hole (fun k => n_min (n_min k w) h) m)
    | TPolygon d n rot hole =>
        let r := match rot with Some r => if n_eqb r n0 then n0 else r | None => n0 end in
        let* sh := new_polygon o d n r false m in
        finish (DShape sh :: hole_of hole (fun k => n_min k d) m)
    | TMacro name params =>
        match d_get name (s_macros s) with
        | None => Err (EMacroNotDefined name)
        | Some prims =>
            let x := set_buffer (empty_buffer (ad_id a)) x in
            let* ms := on_prims m prims (MkM (macro_scope params) (empty_buffer (ad_id a)) x) in
            Ok (set_buffer (ms_buf ms) (ms_c ms))
        end
    end.

  Definition compiler_hooks : hooks K (cstate K) := {|
    hk_draw := on_draw; hk_flash := on_flash;
    hk_start_region := start_region; hk_flush_region := flush_region; hk_end_region := end_region;
    hk_ad := on_aperture; hk_ab_open := ab_open; hk_ab_close := ab_close;
    hk_sr_open := sr_open; hk_sr_close := sr_close |}.

  (** *** Output *)
  (** [_resolve_buffer_submit_order] 776-791; the fuel stands for the recursion limit. *)
  Fixpoint resolve (fuel : nat) (bs : dict (buffer K)) (b : buffer K) (out : list str)
    : result exc (list str) :=
    match fuel with
    | O => Err EOutOfFuel
    | S f =>
        let* out :=
          (fix go (deps : list str) (out : list str) : result exc (list str) :=
             match deps with
             | [] => Ok out
             | d :: r =>
                 let* db := get_buffer d bs in
                 let* out := resolve f bs db out in
                 if existsb (str_eqb (bf_id b)) out then Err ECyclicDependency else go r out
             end) (iter (bf_id b) (bf_deps b)) out in
        Ok (out ++ [bf_id b])
    end.
  Fixpoint get_buffers (bs : dict (buffer K)) (ids : list str) : result exc (list (buffer K)) :=
    match ids with
    | [] => Ok []
    | i :: r => let* b := get_buffer i bs in let* l := get_buffers bs r in Ok (b :: l)
    end.
  Definition submit_order (bs : dict (buffer K)) : result exc (list (buffer K)) :=
    let* main := get_buffer main_id bs in
    let* ids := resolve (S (length bs)) bs main [] in
    get_buffers bs ids.

  (** [_convert_buffers_to_rvmc] 800-809 *)
  Definition block_of (b : buffer K) : list (cmd K) :=
    KStart (bf_id b) None (MkVec n0 n0) :: map KDraw (bf_cmds b) ++ [KEnd].
  Definition convert (bs : dict (buffer K)) : result exc (list (cmd K)) :=
    let* order := submit_order bs in
    Ok (flat_map block_of order).

  (** [compile] 811-815 *)
  Definition compile (ignore_program_stop : bool) (ns : list (node K)) : result exc (list (cmd K)) :=
    let* v := on_file compiler_hooks ignore_program_stop ns (visitor_init compiler_init) in
    convert (c_buffers (v_ext v)).
  Definition compile_meta (v : visitor K (cstate K)) : meta := meta_of (s_file_attrs (v_state v)).
End Compiler.
