(** Model of the edges that go with the counts of a histogram: RecorderResult.histogram
    (pvtrace/engine/api.py 63-72), _histogram_meta of the studio (pvtrace/studio/server.py 501-529)
    and the text of inspectBin (pvtrace/studio/static/app.js 1081-1113; which bin is under the mouse is
    in BrowserModel.v).  The formatting of the numbers is not modelled here. *)
From Coq Require Import Reals ZArith List Bool Arith.
From Verif Require Import Base Vec TracerModel KernelModel TallyModel BrowserModel.
Import ListNotations.
Open Scope R_scope.

(** np.linspace(start, stop, num): arange(0, num) * step + start, and the last point is set to
    stop if num > 1 *)
Definition linspace (start stop : R) (num : nat) : list R :=
  map (fun i => if Nat.ltb 1 num && Nat.eqb (S i) num then stop else INR i * ((stop - start) / INR (num - 1)) + start)
      (seq 0 num).
Definition edges (h : histogram) : list R := linspace (h_start h) (h_stop h) (h_bins h + 1).

(** values.reshape(na, nb); None: ValueError *)
Definition reshape (values : list nat) (na nb : nat) : option (list (list nat)) :=
  if Nat.eqb (length values) (na * nb) then Some (map (fun ia => firstn nb (skipn (ia * nb) values)) (seq 0 na)) else None.

(** api.py 63-72; None: IndexError or ValueError.  (Negative indices are not modelled.) *)
Inductive hist_result :=
| Counts (e : list R) (counts : list nat)
| Counts2 (edges_a edges_b : list R) (counts : list (list nat)).
Definition result_histogram (rc : recorder) (x : result) (index : nat) : option hist_result :=
  match nth_error (rec_hists rc) index, nth_error (r_bins x) index with
  | Some (H2 a b), Some values => option_map (Counts2 (edges a) (edges b)) (reshape values (h_bins a) (h_bins b))
  | Some (H1 h), Some values => Some (Counts (edges h) values)
  | _, _ => None
  end.

(** server.py 507-523: an entry of "histograms" *)
Inductive meta_entry :=
| MetaHeatmap (offset : nat) (prop_a prop_b : prop) (edges_a edges_b : list R)
| MetaHist (offset : nat) (p : prop) (e : list R).
Definition entry_of (rows : list hrow) (start h : nat) (spec : hspec) : meta_entry :=
  let offset := hr_offset (nth (start + h) rows default_row) in
  match spec with
  | H2 a b => MetaHeatmap offset (h_prop a) (h_prop b) (edges a) (edges b)
  | H1 a => MetaHist offset (h_prop a) (edges a)
  end.
(** 524-528: name, event and node of a recorder, and its entries.  rec_node holds the number of the
    node (compiler.py 172); names stand for themselves. *)
Record meta := Meta { me_name : nat; me_event : selector; me_node : nat; me_histograms : list meta_entry }.
Definition histogram_meta (rs : list (nat * recorder)) : list meta :=
  let '(ks, rows, _) := compile_recorders rs 0 0 in
  map (fun k => Meta (rec_name (kr_rec k)) (rec_event (kr_rec k)) (kr_node k)
         (map (fun '(h, spec) => entry_of rows (kr_start k) h spec)
              (combine (seq 0 (length (rec_hists (kr_rec k)))) (rec_hists (kr_rec k))))) ks.

(** app.js 1081-1113: the numbers in the text.  None: undefined.toFixed is a TypeError.
    [Lines]: the property, two edges, the count, its square root, the percentage.
    [Cells]: both properties with their edges, the count. *)
Inductive readout :=
| NoReadout
| Lines (p : prop) (lo hi : R) (count : nat) (err percent : R)
| Cells (pa : prop) (alo ahi : R) (pb : prop) (blo bhi : R) (count : nat).
Definition at_index {A} (l : list A) (i : Z) : option A := if (i <? 0)%Z then None else nth_error l (Z.to_nat i).
Definition inspect_bin (m : meta_entry) (values : list nat) (shape : nat * nat) (fx fy : R) : option readout :=
  match m with
  | MetaHist _ PAngle _ => Some NoReadout
  | MetaHist _ p e =>
      let i := readout_bars (length values) fx in
      let total := match list_sum values with O => 1%nat | t => t end in
      match at_index e i, at_index e (i + 1), at_index values i with
      | Some lo, Some hi, Some c => Some (Lines p lo hi c (sqrt (INR c)) (100 * INR c / INR total))
      | _, _, _ => None
      end
  | MetaHeatmap _ pa pb ea eb =>
      let (na, nb) := shape in
      let (ia, ib) := readout_heatmap na nb fx fy in
      match at_index ea ia, at_index ea (ia + 1), at_index eb ib, at_index eb (ib + 1), at_index values (ia * Z.of_nat nb + ib) with
      | Some alo, Some ahi, Some blo, Some bhi, Some c => Some (Cells pa alo ahi pb blo bhi c)
      | _, _, _, _, _ => None
      end
  end.
