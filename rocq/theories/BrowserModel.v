(** Model of the drawing functions of the studio page, pvtrace/studio/static/app.js: colours,
    heatmaps, bars, the readout under the mouse and the overlays on box faces.
    JavaScript numbers are reals; the browser's compositing, colour management and antialiasing
    are not modelled. *)
From Coq Require Import Reals ZArith List Bool Arith.
From Verif Require Import Base Vec TallyModel.
Import ListNotations.
Open Scope R_scope.

(** Math.floor *)
Definition floor (x : R) : Z := (up x - 1)%Z.

(** ** Wavelengths (24-36 wavelengthToColor) *)
Definition wavelength_base (nm : R) : R * R * R :=
  let nm := if Rltb nm 380 then 380 else nm in
  let nm := if Rltb 780 nm then 780 else nm in
  if Rltb nm 440 then (- (nm - 440) / 60, 0, 1)
  else if Rltb nm 490 then (0, (nm - 440) / 50, 1)
  else if Rltb nm 510 then (0, 1, - (nm - 510) / 20)
  else if Rltb nm 580 then ((nm - 510) / 70, 1, 0)
  else if Rltb nm 645 then (1, - (nm - 645) / 65, 0)
  else (1, 0, 0).
Definition wavelength_to_color (nm fl : R) : R * R * R :=
  let '(r, g, b) := wavelength_base nm in (fl + (1 - fl) * r, fl + (1 - fl) * g, fl + (1 - fl) * b).

(** ** Heatmap colours *)
(** 956-959 *)
Definition VIRIDIS : list (R * R * R) :=
  [(68, 1, 84); (71, 44, 122); (59, 81, 139); (44, 113, 142); (33, 144, 141);
   (39, 173, 129); (92, 200, 99); (170, 220, 50); (253, 231, 37)].
(** 961-966 *)
Definition viridis (t : R) : R * R * R :=
  let x := Rmax 0 (Rmin (9999 / 10000) t) * 8 in
  let i := floor x in
  let f := x - IZR i in
  let '(a0, a1, a2) := nth (Z.to_nat i) VIRIDIS (0, 0, 0) in
  let '(b0, b1, b2) := nth (Z.to_nat i + 1) VIRIDIS (0, 0, 0) in
  (a0 + f * (b0 - a0), a1 + f * (b1 - a1), a2 + f * (b2 - a2)).
Definition green (c : R * R * R) : R := snd (fst c).
(** 1032-1036; decades: the slider goes from 0.5 to 6 (0 would be replaced by 3) *)
Definition heatmap_t (heatmap_max decades value : R) : R :=
  if Rleb value 0 then 0 else Rmin 1 (Rmax 0 (1 + ln (value / heatmap_max) / ln 10 / decades)).
(** 1060-1069 refreshHeatmaps: one maximum over all heatmaps of all recorders, at least 1 *)
Definition heatmap_max (entries : list (list R)) : R :=
  fold_left (fun m v => if Rltb m v then v else m) (concat entries) 1.

(** ** Heatmap images (1038-1054 drawHeatmapInto) *)
Definition put_pixel {A} (image : nat -> option A) (i : nat) (c : A) : nat -> option A := fun j => if Nat.eqb j i then Some c else image j.
Definition draw_heatmap {A} (colour : R -> A) (values : nat -> R) (na nb : nat) : nat -> option A :=
  fold_left (fun image ia =>
    fold_left (fun image ib => put_pixel image ((nb - 1 - ib) * na + ia)%nat (colour (values (ia * nb + ib)%nat)))
              (seq 0 nb) image) (seq 0 na) (fun _ => None).
(** drawImage stretches the na x nb image over the canvas without smoothing: the image pixel shown
    at the fraction (fx, fy) of the canvas, from the left and from the top *)
Definition shown {A} (image : nat -> option A) (na nb : nat) (fx fy : R) : option A :=
  image (Z.to_nat (floor (fy * INR nb)) * na + Z.to_nat (floor (fx * INR na)))%nat.

(** ** The readout (1081-1112 inspectBin).  [fx], [fy]: the mouse position as a fraction of the
    canvas, from the left and from the top *)
Definition readout_heatmap (na nb : nat) (fx fy : R) : Z * Z :=
  (Z.min (Z.of_nat na - 1) (floor (fx * INR na)), Z.min (Z.of_nat nb - 1) (floor ((1 - fy) * INR nb))).
Definition readout_bars (n : nat) (fx : R) : Z := Z.min (Z.of_nat n - 1) (floor (fx * INR n)).
(** 969-986 drawBars: the horizontal extent of bar i on a canvas of width W *)
Definition pad : R := 2.
Definition bar_left (W : R) (n i : nat) : R := pad + INR i * ((W - 2 * pad) / INR n).
Definition bar_width (W : R) (n : nat) : R := Rmax 1 ((W - 2 * pad) / INR n - 1).

(** ** Overlays (156-226 buildRecorderOverlay) *)
(** The overlay of a facet recorder with a heatmap on a box: which axis the facet is on, and the
    axes of the texture *)
Definition coord (v : vec) (i : nat) : R := match i with 0%nat => vx v | 1%nat => vy v | _ => vz v end.
Definition axis_of_prop (p : prop) : option nat := match p with PX => Some 0 | PY => Some 1 | PZ => Some 2 | _ => None end%nat.
Definition facet_axis (facet : vec) : option nat := find (fun i => Rltb (1 / 2) (Rabs (coord facet i))) [0; 1; 2]%nat.
Definition texture_axes (axis : nat) (a b : histogram) : nat * nat :=
  let default := match filter (fun i => negb (Nat.eqb i axis)) [0; 1; 2]%nat with [u; v] => (u, v) | _ => (0, 0)%nat end in
  match axis_of_prop (h_prop a), axis_of_prop (h_prop b) with
  | Some u, Some v => if Nat.eqb u axis || Nat.eqb v axis then default else (u, v)
  | _, _ => default
  end.
(** The quad spans the face and carries texture coordinates 0 to 1 along both axes: the texture
    coordinates of the point [p] of the face, and the place on the canvas (CanvasTexture flips
    vertically). *)
Definition texture_point (size : vec) (axes : nat * nat) (p : vec) : R * R :=
  (coord p (fst axes) / coord size (fst axes) + 1 / 2, coord p (snd axes) / coord size (snd axes) + 1 / 2).
Definition canvas_point (uv : R * R) : R * R := (fst uv, 1 - snd uv).
(** What the overlay shows at the point [p] of the face *)
Definition overlay_at {A} (image : nat -> option A) (a b : histogram) (size : vec) (facet p : vec) : option A :=
  match facet_axis facet with
  | None => None
  | Some axis => let '(fx, fy) := canvas_point (texture_point size (texture_axes axis a b) p) in shown image (h_bins a) (h_bins b) fx fy
  end.
