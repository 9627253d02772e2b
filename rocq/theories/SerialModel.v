(** Model of the serializers of Pairings, PairWeights, WeightParameters, Parameters, Results,
    LogRecord (package mp2p_icp) and metric_map_t, Georeferencing (mp2p_icp_map).
    Sources cited at each definition.  A "serializeFrom" is a reader that gets the previous
    value of the object (fields not read keep it).  What is left in the object when a read
    throws is not modelled.  Doubles are their 64-bit patterns. *)
From Coq Require Import String.
From Verif Require Import Base CodecModel PairingsModel.
Open Scope N_scope.

(** size_t / uint64_t / uint32_t fields held as [nat] *)
Definition nat_c (k : nat) : codec nat :=
  mkCodec nat (fun n => enc (uint k) (N.of_nat n)) (read n := dec (uint k) in rret (N.to_nat n))
    (fun n => N.of_nat n < 256 ^ N.of_nat k).

(** External value types: TPoint3D, TLine3D, TPlane, TMatchingPairList elements, CPose3D,
    TPose3D, CPose3DPDFGaussian, a layer object; with their MRPT wire formats. *)
Record Ext : Type := mkExt {
  xPoint : Type; xLine : Type; xPlane : Type; xMatch : Type;
  xPose : Type; xTPose : Type; xPdf : Type; xLayer : Type;
  cPoint : codec xPoint; cLine : codec xLine; cPlane : codec xPlane;
  cMatchList : codec (list xMatch);
  cPose : codec xPose; cTPose : codec xTPose; cPdf : codec xPdf; cLayer : codec xLayer;
  pdf_mean : xPdf -> xPose;             (* CPose3DPDFGaussian::mean *)
  pdf_of_mean : xPose -> xPdf }.        (* a default-constructed one with that mean *)
Definition ext_ok (X : Ext) : Prop :=
  codec_ok (cPoint X) /\ codec_ok (cLine X) /\ codec_ok (cPlane X) /\ codec_ok (cMatchList X)
  /\ codec_ok (cPose X) /\ codec_ok (cTPose X) /\ codec_ok (cPdf X) /\ codec_ok (cLayer X).

Section Serial.
Context (X : Ext).
Notation Point := (xPoint X). Notation Line := (xLine X). Notation Plane := (xPlane X).

(** plane_patch.h:26-37 *)
Record plane_patch : Type := mkPatch { plane : Plane; centroid : Point }.
(** Pairings.h:61-73, point_plane_pair_t.h, Pairings.h:51-57, 37-48 *)
Record point_line_pair : Type := mkPL { pl_ln_global : Line; pl_pt_local : Point }.
Record point_plane_pair : Type := mkPN { pn_pl_global : plane_patch; pn_pt_local : Point }.
Record matched_line : Type := mkLL { ll_global : Line; ll_local : Line }.
Record matched_plane : Type := mkNN { nn_global : plane_patch; nn_local : plane_patch }.
Definition pairings : Type := Pairings (xMatch X) point_line_pair point_plane_pair matched_line matched_plane N.

(** Pairings.cpp:280-286 and 288-295 (the version byte is read and ignored) *)
Definition w_point_line (o : point_line_pair) : stream :=
  enc u8 0 ++ enc (cLine X) (pl_ln_global o) ++ enc (cPoint X) (pl_pt_local o).
Definition r_point_line : reader point_line_pair :=
  read _ := dec u8 in read l := dec (cLine X) in read p := dec (cPoint X) in rret (mkPL l p).
(** Pairings.cpp:297-302, 304-310 *)
Definition w_point_plane (o : point_plane_pair) : stream :=
  enc u8 0 ++ enc (cPoint X) (centroid (pn_pl_global o)) ++ enc (cPlane X) (plane (pn_pl_global o)) ++ enc (cPoint X) (pn_pt_local o).
Definition r_point_plane : reader point_plane_pair :=
  read _ := dec u8 in read c := dec (cPoint X) in read n := dec (cPlane X) in read p := dec (cPoint X) in
  rret (mkPN (mkPatch n c) p).
(** Pairings.cpp:312-317, 319-325 *)
Definition w_matched_line (o : matched_line) : stream :=
  enc u8 0 ++ enc (cLine X) (ll_local o) ++ enc (cLine X) (ll_global o).
Definition r_matched_line : reader matched_line :=
  read _ := dec u8 in read l := dec (cLine X) in read g := dec (cLine X) in rret (mkLL g l).
(** Pairings.cpp:327-333, 334-341 *)
Definition w_matched_plane (o : matched_plane) : stream :=
  enc u8 0 ++ enc (cPoint X) (centroid (nn_local o)) ++ enc (cPlane X) (plane (nn_local o))
  ++ enc (cPoint X) (centroid (nn_global o)) ++ enc (cPlane X) (plane (nn_global o)).
Definition r_matched_plane : reader matched_plane :=
  read _ := dec u8 in read c1 := dec (cPoint X) in read n1 := dec (cPlane X) in
  read c2 := dec (cPoint X) in read n2 := dec (cPlane X) in
  rret (mkNN (mkPatch n2 c2) (mkPatch n1 c1)).
Definition good_patch (p : plane_patch) : Prop := good (cPlane X) (plane p) /\ good (cPoint X) (centroid p).
Definition c_point_line : codec point_line_pair := mkCodec _ w_point_line r_point_line
  (fun o => good (cLine X) (pl_ln_global o) /\ good (cPoint X) (pl_pt_local o)).
Definition c_point_plane : codec point_plane_pair := mkCodec _ w_point_plane r_point_plane
  (fun o => good_patch (pn_pl_global o) /\ good (cPoint X) (pn_pt_local o)).
Definition c_matched_line : codec matched_line := mkCodec _ w_matched_line r_matched_line
  (fun o => good (cLine X) (ll_global o) /\ good (cLine X) (ll_local o)).
Definition c_matched_plane : codec matched_plane := mkCodec _ w_matched_plane r_matched_plane
  (fun o => good_patch (nn_global o) /\ good_patch (nn_local o)).
Definition c_weights : codec (list (nat * N)) := vec "std::pair<size_t,double>" (pair_c (nat_c 8) f64).
Definition v_pl := vec "mp2p_icp::point_line_pair_t" c_point_line.
Definition v_pn := vec "mp2p_icp::point_plane_pair_t" c_point_plane.
Definition v_ll := vec "mp2p_icp::matched_line_t" c_matched_line.
Definition v_nn := vec "mp2p_icp::matched_plane_t" c_matched_plane.

(** Pairings.cpp:36-42 with SERIALIZATION_VERSION 1 (line 32) *)
Definition w_pairings (p : pairings) : stream :=
  enc u8 1 ++ enc (cMatchList X) (paired_pt2pt p)
  ++ enc v_pl (paired_pt2ln p) ++ enc v_pn (paired_pt2pl p) ++ enc v_ll (paired_ln2ln p)
  ++ enc v_nn (paired_pl2pl p) ++ enc c_weights (point_weights p)
  ++ enc (nat_c 8) (potential_pairings p).
(** Pairings.cpp:44-52 *)
Definition r_pairings (old : pairings) : reader pairings :=
  read v := dec u8 in
  read _ := guard (v <=? 1) in
  read a := dec (cMatchList X) in
  read b := dec v_pl in read c := dec v_pn in read d := dec v_ll in read e := dec v_nn in
  read w := dec c_weights in
  read n := (if 1 <=? v then dec (nat_c 8) else rret (potential_pairings old)) in
  rret (mkPairings a b c d e w n).
(** What the version-0 writer produced (from the reader's v0 path). *)
Definition w_pairings_v0 (p : pairings) : stream :=
  enc u8 0 ++ enc (cMatchList X) (paired_pt2pt p)
  ++ enc v_pl (paired_pt2ln p) ++ enc v_pn (paired_pt2pl p) ++ enc v_ll (paired_ln2ln p)
  ++ enc v_nn (paired_pl2pl p) ++ enc c_weights (point_weights p).
Definition good_pairings (p : pairings) : Prop :=
  good (cMatchList X) (paired_pt2pt p) /\ good v_pl (paired_pt2ln p) /\ good v_pn (paired_pt2pl p)
  /\ good v_ll (paired_ln2ln p) /\ good v_nn (paired_pl2pl p) /\ good c_weights (point_weights p)
  /\ good (nat_c 8) (potential_pairings p).

(** ** PairWeights and WeightParameters *)
(** PairWeights.h:27-48 *)
Record PairWeights : Type := mkPW { pw_pt2pt : N; pw_pt2pl : N; pw_pt2ln : N; pw_ln2ln : N; pw_pl2pl : N }.
(** PairWeights.cpp:46-49, 50-53 *)
Definition w_pair_weights (p : PairWeights) : stream :=
  enc f64 (pw_pt2pt p) ++ enc f64 (pw_pt2pl p) ++ enc f64 (pw_pt2ln p) ++ enc f64 (pw_ln2ln p) ++ enc f64 (pw_pl2pl p).
Definition r_pair_weights : reader PairWeights :=
  read a := dec f64 in read b := dec f64 in read c := dec f64 in read d := dec f64 in read e := dec f64 in
  rret (mkPW a b c d e).
Definition good_pair_weights (p : PairWeights) : Prop :=
  good f64 (pw_pt2pt p) /\ good f64 (pw_pt2pl p) /\ good f64 (pw_pt2ln p) /\ good f64 (pw_ln2ln p) /\ good f64 (pw_pl2pl p).
(** WeightParameters.h:34-77; robust_kernel is an enum (written as one byte) *)
Record WeightParams : Type := mkWP {
  wp_use_scale : bool; wp_scale_thr : N; wp_pair_weights : PairWeights;
  wp_robust_kernel : N; wp_current : option (xPose X); wp_kernel_param : N }.
Definition c_optpose := opt_c "mrpt::poses::CPose3D" (cPose X).
(** WeightParameters.cpp:31-37 *)
Definition w_weight_params (p : WeightParams) : stream :=
  enc bool_c (wp_use_scale p) ++ enc f64 (wp_scale_thr p) ++ enc u8 (wp_robust_kernel p)
  ++ enc c_optpose (wp_current p) ++ enc f64 (wp_kernel_param p) ++ w_pair_weights (wp_pair_weights p).
(** WeightParameters.cpp:38-68 *)
Definition r_weight_params (old : WeightParams) (v : N) : reader WeightParams :=
  if v <=? 1 then
    read us := dec bool_c in read th := dec f64 in
    read k := (if v <? 1 then read _ := dec bool_c in rret (wp_robust_kernel old) else dec u8) in
    read cur := dec c_optpose in read kp := dec f64 in
    read _ := (if v <? 1 then read _ := dec f64 in rret tt else rret tt) in
    read pw := r_pair_weights in
    rret (mkWP us th pw k cur kp)
  else rfail.
Definition good_weight_params (p : WeightParams) : Prop :=
  good f64 (wp_scale_thr p) /\ good u8 (wp_robust_kernel p) /\ good c_optpose (wp_current p)
  /\ good f64 (wp_kernel_param p) /\ good_pair_weights (wp_pair_weights p).
(** The version-0 layout as its reader expects it: a flag for the kernel, an extra double. *)
Definition w_weight_params_v0 (p : WeightParams) (useRobust : bool) (scale : N) : stream :=
  enc bool_c (wp_use_scale p) ++ enc f64 (wp_scale_thr p) ++ enc bool_c useRobust
  ++ enc c_optpose (wp_current p) ++ enc f64 (wp_kernel_param p) ++ enc f64 scale ++ w_pair_weights (wp_pair_weights p).

(** ** Parameters *)
(** Parameters.h:34-101 (the two functors are not modelled) *)
Record Params : Type := mkP {
  p_maxIterations : N; p_minAbsStep_trans : N; p_minAbsStep_rot : N;
  p_generateDebugFiles : bool; p_saveIterationDetails : bool;
  p_decimationIterationDetails : N; p_decimationDebugFiles : N;
  p_debugFileNameFormat : list N; p_debugPrint : bool;
  p_quality_checkpoints : list (N * N) }.
Variable default_params : Params.
Variable ENV : bool.                    (* MP2P_ICP_GENERATE_DEBUG_FILES, lines 26-27 *)
(** Parameters.cpp:31-38 *)
Definition w_params (p : Params) : stream :=
  enc u32 (p_maxIterations p) ++ enc f64 (p_minAbsStep_trans p) ++ enc f64 (p_minAbsStep_rot p)
  ++ enc bool_c (p_generateDebugFiles p) ++ enc string_c (p_debugFileNameFormat p)
  ++ enc bool_c (p_debugPrint p) ++ enc u32 (p_decimationDebugFiles p)
  ++ enc bool_c (p_saveIterationDetails p) ++ enc u32 (p_decimationIterationDetails p).
(** Parameters.cpp:39-61: starts from the defaults *)
Definition r_params (v : N) : reader Params :=
  let d := default_params in
  if v <=? 2 then
    read mi := dec u32 in read st := dec f64 in read sr := dec f64 in
    read gd := dec bool_c in read fn := dec string_c in read dp := dec bool_c in
    read dd := (if 1 <=? v then dec u32 else rret (p_decimationDebugFiles d)) in
    read sd := (if 2 <=? v then read s := dec bool_c in read di := dec u32 in rret (s, di)
                else rret (p_saveIterationDetails d, p_decimationIterationDetails d)) in
    rret (mkP mi st sr (gd || ENV) (fst sd) (snd sd) dd fn dp (p_quality_checkpoints d))
  else rfail.
Definition good_params (p : Params) : Prop :=
  good u32 (p_maxIterations p) /\ good f64 (p_minAbsStep_trans p) /\ good f64 (p_minAbsStep_rot p)
  /\ good string_c (p_debugFileNameFormat p) /\ good u32 (p_decimationDebugFiles p)
  /\ good u32 (p_decimationIterationDetails p).
(** older layouts *)
Definition w_params_v0 (p : Params) : stream :=
  enc u32 (p_maxIterations p) ++ enc f64 (p_minAbsStep_trans p) ++ enc f64 (p_minAbsStep_rot p)
  ++ enc bool_c (p_generateDebugFiles p) ++ enc string_c (p_debugFileNameFormat p) ++ enc bool_c (p_debugPrint p).
Definition w_params_v1 (p : Params) : stream := w_params_v0 p ++ enc u32 (p_decimationDebugFiles p).

(** ** Results *)
(** Results.h:29-54 *)
Record Results : Type := mkR {
  res_optimal_tf : xPdf X; res_scale : N; res_nIterations : nat; res_reason : N; res_quality : N;
  res_pairings : pairings }.
(** Results.cpp:24-31, version 0 (line 22) *)
Definition w_results (r : Results) : stream :=
  enc u8 0 ++ enc (cPdf X) (res_optimal_tf r) ++ enc f64 (res_scale r) ++ enc (nat_c 8) (res_nIterations r)
  ++ enc u8 (res_reason r) ++ enc f64 (res_quality r) ++ w_pairings (res_pairings r).
(** Results.cpp:32-42 *)
Definition r_results (old : Results) : reader Results :=
  read v := dec u8 in read _ := guard (v =? 0) in
  read tf := dec (cPdf X) in read sc := dec f64 in read ni := dec (nat_c 8) in
  read tr := dec u8 in read q := dec f64 in read ps := r_pairings (res_pairings old) in
  rret (mkR tf sc ni tr q ps).
Definition good_results (r : Results) : Prop :=
  good (cPdf X) (res_optimal_tf r) /\ good f64 (res_scale r) /\ good (nat_c 8) (res_nIterations r)
  /\ good u8 (res_reason r) /\ good f64 (res_quality r) /\ good_pairings (res_pairings r).

(** ** metric_map_t *)
(** metricmap.h: Georeferencing *)
Record Georef : Type := mkGeo { geo_lat : N; geo_lon : N; geo_height : N; geo_T : xPdf X }.
(** metadata: a YAML document as text; the empty text stands for null or empty. *)
Record MMap : Type := mkMap {
  m_lines : list Line; m_planes : list plane_patch; m_layers : list (list N * xLayer X);
  m_id : option N; m_label : option (list N); m_georef : option Georef; m_metadata : list N }.
Definition georef_magic := str "mp2p_icp::Georeferencing".
(** metricmap.cpp:852-867 *)
Definition w_georef (g : option Georef) : stream :=
  enc string_c georef_magic ++ enc u8 0 ++
  match g with
  | None => enc bool_c false
  | Some g => enc bool_c true ++ enc f64 (geo_lat g) ++ enc f64 (geo_lon g) ++ enc f64 (geo_height g) ++ enc (cPdf X) (geo_T g)
  end.
(** metricmap.cpp:827-850: a false flag leaves the argument as it was *)
Definition r_georef (old : option Georef) : reader (option Georef) :=
  read _ := expect_str georef_magic in
  read v := dec u8 in
  if v =? 0 then
    read has := dec bool_c in
    if has : bool then read a := dec f64 in read b := dec f64 in read h := dec f64 in read t := dec (cPdf X) in
                rret (Some (mkGeo a b h t))
    else rret old
  else rfail.
Definition good_georef (g : option Georef) : Prop := match g with
  | None => True
  | Some g => good f64 (geo_lat g) /\ good f64 (geo_lon g) /\ good f64 (geo_height g) /\ good (cPdf X) (geo_T g) end.

(** one plane, lines 56 and 105: plane then centroid *)
Definition c_patch : codec plane_patch := mkCodec _
  (fun p => enc (cPlane X) (plane p) ++ enc (cPoint X) (centroid p))
  (read n := dec (cPlane X) in read c := dec (cPoint X) in rret (mkPatch n c)) good_patch.
Definition c_layer : codec (list N * xLayer X) := pair_c string_c (cLayer X).
Definition v_lines := vec "mrpt::math::TLine3D" (cLine X).
Definition c_optid := opt_c "uint64_t" u64.
Definition c_optlabel := opt_c "std::string" string_c.

(** Data of derived classes, metricmap.h derivedSerializeTo/From: nothing by default. *)
(** lines 51-71, common to every version but for id and label *)
Definition w_map_base (m : MMap) : stream :=
  enc v_lines (m_lines m) ++ enc (counted c_patch) (m_planes m) ++ enc (counted (cLine X)) (m_lines m)
  ++ enc (counted c_layer) (m_layers m).
(** metricmap.cpp:49-88 *)
Definition w_map (m : MMap) : stream :=
  w_map_base m ++ enc c_optid (m_id m) ++ enc c_optlabel (m_label m) ++ w_georef (m_georef m)
  ++ (if m_metadata m then enc bool_c false else enc bool_c true ++ enc string_c (m_metadata m)).
(** std::map::operator[] = : a later entry with the same name replaces the earlier one *)
Fixpoint set_layer (l : list (list N * xLayer X)) (k : list N) (v : xLayer X) : list (list N * xLayer X) :=
  match l with
  | [] => [(k, v)]
  | (k', v') :: r => if list_N_eqb k k' then (k, v) :: r else (k', v') :: set_layer r k v
  end.
Definition to_map (l : list (list N * xLayer X)) : list (list N * xLayer X) :=
  fold_left (fun m kv => set_layer m (fst kv) (snd kv)) l [].
(** metricmap.cpp:89-178 *)
Definition r_map (old : MMap) (v : N) : reader MMap :=
  if v <=? 5 then
    read _ := dec v_lines in
    read pls := dec (counted c_patch) in
    read lns := dec (counted (cLine X)) in
    read lys := dec (counted c_layer) in
    read il := (if 1 <=? v then read i := dec c_optid in read l := dec c_optlabel in rret (i, l) else rret (None, None)) in
    read g1 := (if (2 <=? v) && (v <? 4) then
        read has := dec bool_c in
        if has : bool then
          read a := dec f64 in read b := dec f64 in read h := dec f64 in
          if 3 <=? v then read t := dec (cPdf X) in rret (Some (mkGeo a b h t))
          else read t := dec (cPose X) in rret (Some (mkGeo a b h (pdf_of_mean X t)))
        else rret None
      else rret None) in
    read g2 := (if 4 <=? v then r_georef g1 else rret g1) in
    read md := (if 5 <=? v then read has := dec bool_c in if has : bool then dec string_c else rret [] else rret []) in
    rret (mkMap lns pls (to_map lys) (fst il) (snd il) g2 md)
  else rfail.
(** The layouts of the older versions, as the reader expects them (version 2 stored only the
    mean of the georeferencing pose). *)
Definition w_map_old (v : N) (m : MMap) : stream :=
  w_map_base m
  ++ (if 1 <=? v then enc c_optid (m_id m) ++ enc c_optlabel (m_label m) else [])
  ++ (if (v =? 2) || (v =? 3) then match m_georef m with None => enc bool_c false
        | Some g => enc bool_c true ++ enc f64 (geo_lat g) ++ enc f64 (geo_lon g) ++ enc f64 (geo_height g)
                    ++ (if v =? 2 then enc (cPose X) (pdf_mean X (geo_T g)) else enc (cPdf X) (geo_T g)) end else [])
  ++ (if v =? 4 then w_georef (m_georef m) else []).
Definition good_map (m : MMap) : Prop :=
  good v_lines (m_lines m) /\ good (counted c_patch) (m_planes m) /\ good (counted c_layer) (m_layers m)
  /\ NoDup (map fst (m_layers m))       (* layers is a std::map *)
  /\ good c_optid (m_id m) /\ good c_optlabel (m_label m) /\ good_georef (m_georef m) /\ good string_c (m_metadata m).

(** ** LogRecord *)
(** LogRecord.h:55-70 *)
Record IterInfo : Type := mkIter { it_pose : xPose X; it_pairings : pairings }.
(** LogRecord.cpp:127-138 *)
Definition w_iter (i : IterInfo) : stream := enc u8 0 ++ enc (cPose X) (it_pose i) ++ w_pairings (it_pairings i).
Definition r_iter : reader IterInfo :=
  read v := dec u8 in read _ := guard (v =? 0) in read p := dec (cPose X) in
  read q := r_pairings pairings_empty_ctor in rret (mkIter p q).
Definition c_iter : codec IterInfo := mkCodec _ w_iter r_iter (fun i => good (cPose X) (it_pose i) /\ good_pairings (it_pairings i)).
(** LogRecord.h:42-75 *)
Record LogRec : Type := mkLog {
  log_global : option MMap; log_local : option MMap; log_guess : xTPose X;
  log_params : Params; log_results : Results;
  log_iters : option (list (nat * IterInfo)); log_vars : list (list N * N) }.
Definition map_cls := "mp2p_icp::metric_map_t"%string.
Definition params_cls := "mp2p_icp::Parameters"%string.
Variable empty_map : MMap.
Variable default_results : Results.
Definition c_iters := opt_c "std::map" (map_c "size_t" "mp2p_icp::LogRecord::DebugInfoPerIteration" (nat_c 8) c_iter).
Definition c_vars := map_c "std::string" "double" string_c f64.
Definition w_optmap (m : option MMap) : stream :=
  match m with None => enc bool_c false | Some m => enc bool_c true ++ write_object map_cls 5 (w_map m) end.
Definition r_optmap : reader (option MMap) :=
  read has := dec bool_c in
  if has : bool then read m := read_object map_cls (r_map empty_map) in rret (Some m) else rret None.
(** LogRecord.cpp:28-53 *)
Definition w_log (l : LogRec) : stream :=
  w_optmap (log_global l) ++ w_optmap (log_local l) ++ enc (cTPose X) (log_guess l)
  ++ write_object params_cls 2 (w_params (log_params l)) ++ w_results (log_results l)
  ++ enc c_iters (log_iters l) ++ enc c_vars (log_vars l).
(** LogRecord.cpp:54-85 *)
Definition r_log (v : N) : reader LogRec :=
  if v <=? 1 then
    read g := r_optmap in read l := r_optmap in read ig := dec (cTPose X) in
    read ps := read_object params_cls r_params in
    read rs := r_results default_results in
    read its := dec c_iters in
    read vs := (if 1 <=? v then dec c_vars else rret []) in
    rret (mkLog g l ig ps rs its vs)
  else rfail.
Definition good_optmap (m : option MMap) : Prop := match m with None => True | Some m => good_map m end.
Definition good_log (l : LogRec) : Prop :=
  good_optmap (log_global l) /\ good_optmap (log_local l) /\ good (cTPose X) (log_guess l)
  /\ good_params (log_params l) /\ good_results (log_results l)
  /\ good c_iters (log_iters l) /\ good c_vars (log_vars l).
End Serial.

(** ** Files *)
(** LogRecord.cpp:106-123 load_from_file and LogRecord.h:87-92 LoadFromFile.  [file] is the
    content after decompression, None when the file cannot be opened.  The object of a failed
    load is left unspecified by the model ([junk]). *)
Section LogFile.
Context (X : Ext) (rd : reader (LogRec X)) (junk : LogRec X).
Definition load_from_file (file : option stream) : bool * LogRec X :=
  match file with
  | None => (false, junk)
  | Some bytes => match rd bytes with
                  | Ok (l, _) => (true, l)
                  | _ => (false, junk)              (* catch (const std::exception&) *)
                  end
  end.
(** the returned flag is not looked at *)
Definition LoadFromFile (file : option stream) : res (LogRec X) := Ok (snd (load_from_file file)).
End LogFile.
