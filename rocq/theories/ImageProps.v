(** C75: the colours of rendered images. *)
From Coq Require Import Reals Permutation.
From Verif Require Import Base Num NumReal ColorModel ColorSpec CompositeModel CliModel.
From Verif Require Import Dict CoordModel Ast StateModel GeomModel CompilerModel LayerSpec BoxModel ArcModel VmModel VmSpec VmProps DrawSpec DrawProofs FlashSpec PaintModel PaintSpec PaintProofs PaintProps RenderSpec RenderProofs RenderProps ImageModel.
Local Open Scope Z_scope.

Lemma div255_exact n : 0 <= n <= 255 -> div255 (n * 255) = n.
Proof.
  intros H. unfold div255. cbv zeta. rewrite !Z.shiftr_div_pow2 by lia. change (2 ^ 8) with 256.
  Z.div_mod_to_equations. lia.
Qed.
Lemma blend_all a b : 0 <= b <= 255 -> blend 255 a b = b.
Proof. intros H. unfold blend. replace (a * (255 - 255) + b * 255) with (b * 255) by lia. apply div255_exact, H. Qed.
Lemma blend_none a b : 0 <= a <= 255 -> blend 0 a b = a.
Proof. intros H. unfold blend. replace (a * (255 - 0) + b * 0) with (a * 255) by lia. apply div255_exact, H. Qed.
Lemma blend_color_all a b : valid b -> blend_color 255 a b = b.
Proof. intros (H1 & H2 & H3 & H4). unfold blend_color. rewrite !blend_all by assumption. destruct b; reflexivity. Qed.
Lemma blend_color_none a b : valid a -> blend_color 0 a b = a.
Proof. intros (H1 & H2 & H3 & H4). unfold blend_color. rewrite !blend_none by assumption. destruct a; reflexivity. Qed.

(** The image of a picture with two colours. *)
Theorem C75_two_colours : forall foreground background size bits x y,
  valid foreground -> valid background -> 0 <= x < fst size -> 0 <= y < snd size ->
  im_size (get_image foreground background size bits) = size /\
  im_at (get_image foreground background size bits) (x, y) = if bits (x, y) then foreground else background.
Proof.
  intros f b size bits x y Hf Hb Hx Hy. split; [reflexivity|]. cbn. rewrite !Z.sub_0_r.
  replace (within size (x, y)) with true by (symmetry; unfold within; cbn; rewrite !andb_true_iff, !Z.leb_le, !Z.ltb_lt; lia).
  destruct (bits (x, y)); [apply blend_color_all|apply blend_color_none]; assumption.
Qed.

(** The image of a compiled file: foreground where the main layer is dark, background elsewhere,
    the first row on top ([shows] as in C56). *)
Theorem C75_file : forall (text : R -> str) md clock iter (iter_perm : forall id l, Permutation (iter id l) l)
    fill dpmm fuel paints fl ips ns cmds m b foreground background,
  valid foreground -> valid background ->
  compile (NK := with_text NumR text) md clock iter ips ns = Ok cmds -> vm_run (pillow paints) fl cmds = Ok (m, Some b) ->
  exists ls shows, layers cmds = Some ls /\
    (forall id ds, In (id, ds) ls -> painted m id ->
       forall xy, shows id xy <-> dark (pixel_covers (size_of dpmm m) (filled_by fill dpmm fuel m) (corner_of dpmm m) shows id) ds xy) /\
    let '(size, bits) := pillow_result fill dpmm fuel m in
    let i := get_image foreground background size bits in
    im_size i = layer_size dpmm b /\
    forall x y, 0 <= x < fst size -> 0 <= y < snd size ->
      (shows main_id (x, snd size - 1 - y) -> im_at i (x, y) = foreground) /\
      (~ shows main_id (x, snd size - 1 - y) -> im_at i (x, y) = background).
Proof.
  intros text md clock iter iter_perm fill dpmm fuel paints fl ips ns cmds m b f g Hf Hg Ec Er.
  destruct (C56_pillow text md clock iter iter_perm fill dpmm fuel paints fl ips ns cmds m b Ec Er) as (ls & El & H). cbv zeta in H.
  destruct H as ((shows & Hr) & Hs & Hp). exists ls, shows. split; [exact El|]. split; [exact Hr|].
  destruct (pillow_result fill dpmm fuel m) as [size bits]. cbn [fst snd] in *. subst size. split; [reflexivity|].
  intros x y Hx Hy. destruct (C75_two_colours f g (layer_size dpmm b) bits x y Hf Hg Hx Hy) as [_ ->].
  specialize (Hp shows Hr x y). destruct (bits (x, y)).
  - split; [reflexivity|]. intros N. destruct N. apply Hp. reflexivity.
  - split; [|reflexivity]. intros S. apply Hp in S. discriminate S.
Qed.

(** ** Several files *)
(** What an image pasted at a corner shows at a place: nothing outside of it. *)
Definition shown (ip : raster * (Z * Z)) (x y : Z) (c : color) : Prop :=
  let u := x - fst (snd ip) in let v := y - snd (snd ip) in
  (0 <= u < fst (im_size (fst ip)) /\ 0 <= v < snd (im_size (fst ip))) /\ im_at (fst ip) (u, v) = c /\ c_alpha c <> 0.
(** The topmost of the images that show something. *)
Inductive topmost (l : list (raster * (Z * Z))) (x y : Z) : color -> Prop :=
| top_none : (forall ip c, In ip l -> ~ shown ip x y c) -> topmost l x y transparent
| top_some a ip b c : l = a ++ ip :: b -> shown ip x y c -> (forall jp d, In jp b -> ~ shown jp x y d) -> topmost l x y c.
(** Opaque or not there at all. *)
Definition plain_colours (i : raster) : Prop := forall uv, valid (im_at i uv) /\ (c_alpha (im_at i uv) = 0 \/ c_alpha (im_at i uv) = 255).

Lemma within_iff size x y : within size (x, y) = true <-> 0 <= x < fst size /\ 0 <= y < snd size.
Proof. unfold within. cbn. rewrite !andb_true_iff, !Z.leb_le, !Z.ltb_lt. lia. Qed.

Lemma paste_all_top l x y : (forall ip, In ip l -> plain_colours (fst ip)) -> forall base,
  valid (im_at base (x, y)) ->
  im_size (paste_all base l) = im_size base /\ valid (im_at (paste_all base l) (x, y)) /\
  ((forall ip c, In ip l -> ~ shown ip x y c) /\ im_at (paste_all base l) (x, y) = im_at base (x, y) \/
   exists a ip b, l = a ++ ip :: b /\ shown ip x y (im_at (paste_all base l) (x, y)) /\ forall jp d, In jp b -> ~ shown jp x y d).
Proof.
  intros Hl. induction l as [|ip l IH]; intros base Hb.
  - split; [reflexivity|]. split; [exact Hb|]. left. split; [intros ip c []|reflexivity].
  - cbn [paste_all fold_left]. set (base1 := paste base (fst ip) (snd ip) (fun uv => c_alpha (im_at (fst ip) uv))).
    fold (paste_all base1 l).
    assert (B1 : valid (im_at base1 (x, y)) /\
      (shown ip x y (im_at base1 (x, y)) \/ ((forall c, ~ shown ip x y c) /\ im_at base1 (x, y) = im_at base (x, y)))).
    { subst base1. cbn. set (uv := (x - fst (snd ip), y - snd (snd ip))).
      destruct (within (im_size (fst ip)) uv) eqn:W.
      - destruct (Hl ip (or_introl eq_refl) uv) as [V [A|A]]; rewrite A.
        + rewrite blend_color_none by exact Hb. split; [exact Hb|]. right. split; [|reflexivity].
          intros c (_ & E & N). apply N. rewrite <- E. exact A.
        + rewrite blend_color_all by exact V. split; [exact V|]. left. unfold shown.
          apply within_iff in W. split; [exact W|]. split; [reflexivity|]. fold uv. rewrite A. discriminate.
      - split; [exact Hb|]. right. split; [|reflexivity]. intros c (I & _). apply within_iff in I. subst uv. congruence. }
    destruct B1 as [V1 B1]. destruct (IH (fun jp Hj => Hl jp (or_intror Hj)) base1 V1) as (S & V & H).
    split; [exact S|]. split; [exact V|]. destruct H as [[N E]|(a & jp & b & -> & H1 & H2)].
    + destruct B1 as [B1|[N1 E1]].
      * right. exists [], ip, l. split; [reflexivity|]. rewrite E. split; [exact B1|]. intros jp d Hj. apply N. exact Hj.
      * left. split; [|rewrite E; exact E1]. intros jp c [<-|Hj]; [apply N1|apply N; exact Hj].
    + right. exists (ip :: a), jp, b. split; [reflexivity|]. auto.
Qed.

(** Full statement: a composite view shows at each place the topmost file that shows something there,
    in its colour; nothing where no file shows anything.  Proved for colours that are opaque or
    fully transparent, like those of all presets; refuted for others (below). *)
Theorem C75_composite_partial : forall subs i,
  composite_pixels subs = Ok i -> Forall (fun s => plain_colours (snd s)) subs ->
  exists c, composite (map fst subs) = Ok c /\ im_size i = (co_width c, co_height c) /\
    forall x y, topmost (combine (map snd subs) (co_places c)) x y (im_at i (x, y)).
Proof.
  intros subs i E Hp. unfold composite_pixels in E. destruct (composite (map fst subs)) as [c|]; [|discriminate E]. injection E as <-.
  exists c. split; [reflexivity|].
  assert (Hl : forall ip, In ip (combine (map snd subs) (co_places c)) -> plain_colours (fst ip)).
  { intros [j p] Hj. apply in_combine_l in Hj. apply in_map_iff in Hj. destruct Hj as (s & <- & Hs).
    rewrite Forall_forall in Hp. exact (Hp s Hs). }
  assert (Vt : valid transparent) by (unfold valid; cbn; lia).
  split.
  - apply (paste_all_top _ 0 0 Hl (new_image (co_width c, co_height c) transparent) Vt).
  - intros x y. destruct (paste_all_top _ x y Hl (new_image (co_width c, co_height c) transparent) Vt) as (_ & _ & [[N E]|(a & ip & b & E & S & N)]).
    + rewrite E. apply top_none. exact N.
    + eapply top_some; [exact E|exact S|exact N].
Qed.

(** Images of files drawn with a preset are opaque or fully transparent. *)
Theorem C75_presets : forall name f g size bits,
  In (name, (f, g)) style_presets -> plain_colours (get_image f g size bits).
Proof.
  assert (P : Forall (fun p => (valid (fst (snd p)) /\ (c_alpha (fst (snd p)) = 0 \/ c_alpha (fst (snd p)) = 255)) /\
                               (valid (snd (snd p)) /\ (c_alpha (snd (snd p)) = 0 \/ c_alpha (snd (snd p)) = 255))) style_presets).
  { repeat (apply Forall_cons; [unfold valid; cbn; lia|]). apply Forall_nil. }
  intros name f g size bits H. rewrite Forall_forall in P. destruct (P _ H) as [[Vf Af] [Vg Ag]]. cbn [fst snd] in *.
  intros [u v]. cbn. destruct (within size _); [|auto]. destruct (bits _).
  - rewrite blend_color_all by exact Vf. auto.
  - rewrite blend_color_none by exact Vg. auto.
Qed.

(** A translucent colour: a file alone in a view is shown with the square of its opacity. *)
Definition one_pixel (c : color) : sub_image * raster :=
  (rendered (MkISpace false 0 0 1 1 1), new_image (1, 1) c).
Theorem C75_composite_refuted :
  ~ forall subs i c, composite_pixels subs = Ok i -> composite (map fst subs) = Ok c ->
      Forall (fun s => forall uv, valid (im_at (snd s) uv)) subs ->
      topmost (combine (map snd subs) (co_places c)) 0 0 (im_at i (0, 0)).
Proof.
  intros H. specialize (H [one_pixel (MkColor 200 0 0 128)] _ _ eq_refl eq_refl).
  assert (V : Forall (fun s : sub_image * raster => forall uv, valid (im_at (snd s) uv)) [one_pixel (MkColor 200 0 0 128)]).
  { repeat constructor; cbn; lia. }
  specialize (H V).
  match type of H with topmost ?l _ _ ?v =>
    assert (Ev : v = MkColor 100 0 0 64) by (vm_compute; reflexivity);
    assert (El : l = [(new_image (1, 1) (MkColor 200 0 0 128), (0, 0))]) by (vm_compute; reflexivity) end.
  set (v := im_at _ _) in *. set (l := combine _ _) in *. clearbody v l. subst v l.
  clear V. inversion H as [N|a ip b c E S N].
  destruct a as [|? [|]]; cbn in E; try discriminate E. injection E as <- <-.
  destruct S as (_ & S & _). cbn in S. discriminate S.
Qed.

Print Assumptions C75_two_colours.
Print Assumptions C75_file.
Print Assumptions C75_composite_partial.
Print Assumptions C75_presets.
Print Assumptions C75_composite_refuted.

(** Two files, the second of them one millimetre to the right of the first and transparent below: *)
Definition red := MkColor 200 0 0 255.
Definition green := MkColor 0 128 0 255.
Definition two_files : list (sub_image * raster) :=
  [(rendered (MkISpace false 0 0 2 2 1), new_image (2, 2) red);
   (rendered (MkISpace false 1 0 3 2 1), get_image green transparent (2, 2) (fun xy => snd xy =? 0))].
Example C75_example :
  match composite_pixels two_files with
  | Ok i => Some (im_size i, map (fun y => map (fun x => im_at i (x, y)) [0; 1; 2]) [0; 1])
  | Err _ => None
  end = Some ((3, 2), [[red; green; green]; [red; red; transparent]]).
Proof. vm_compute. reflexivity. Qed.
