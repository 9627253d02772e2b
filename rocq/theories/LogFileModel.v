(** Model of the debug record of ICP::align() and of its file: mp2p_icp/src/ICP.cpp 64-77, 322-382 (the parts
    that IcpModel leaves out) and 384-468 (ICP::save_log_file), LogRecord.cpp 82-98.

    Simplifications:
    - the layers of the maps are objects of a heap (MapModel), which only the logging functors can change;
    - std::regex_replace is that of the C++ standard with the default (ECMAScript) syntax of the replacement text, and the
      digits of "$n" read as libstdc++ does; the patterns are plain texts (line 406: "\\$UNIQUE_ID" is the text $UNIQUE_ID);
    - the file system (directory creation and writing, lines 440-467, which only print messages on failure, and
      LogRecord::save_to_file, which turns every exception into `false`) is a parameter; the printed messages are left out. *)
From Coq Require Import String Ascii DecimalString DecimalN.
From Verif Require Import Base PairingsModel MatcherModel SolverModel QualityModel IcpModel FilterModel DeskewModel MapModel.
Open Scope nat_scope.

(** ** Texts *)
Notation "a +++ b" := (String.append a b) (at level 60, right associativity).
Fixpoint drop (n : nat) (s : string) : string :=
  match n, s with O, _ => s | S n, String _ s => drop n s | S _, EmptyString => EmptyString end.
Definition dollar : ascii := "$".
Definition is_digit (c : ascii) : bool := let n := nat_of_ascii c in Nat.leb 48 n && Nat.leb n 57.

(** std::match_results::format with the default flags: "$$" is a dollar, "$&" the match, "$`" the text between the last
    match and this one, "$'" the text after it, "$n" and "$nn" the group of that number: there are no groups but 0, the match *)
Fixpoint fmt_go (fmt match_ pre suf : string) : string :=
  match fmt with
  | EmptyString => EmptyString
  | String "$" rest =>
    match rest with
    | String "$" r => String dollar (fmt_go r match_ pre suf)
    | String "&" r => match_ +++ fmt_go r match_ pre suf
    | String "`" r => pre +++ fmt_go r match_ pre suf
    | String "'" r => suf +++ fmt_go r match_ pre suf
    | String d1 r =>
      if is_digit d1 then
        match r with
        | String d2 r2 =>
          if is_digit d2 then (if Ascii.eqb d1 "0" && Ascii.eqb d2 "0" then match_ else EmptyString) +++ fmt_go r2 match_ pre suf
          else (if Ascii.eqb d1 "0" then match_ else EmptyString) +++ fmt_go r match_ pre suf
        | EmptyString => if Ascii.eqb d1 "0" then match_ else EmptyString
        end
      else String dollar (fmt_go rest match_ pre suf)
    | EmptyString => String dollar EmptyString
    end
  | String c rest => String c (fmt_go rest match_ pre suf)
  end.

(** std::regex_replace(s, pat, fmt): all the matches, from the left.  [skip]: characters left of the current match;
    [pre]: text since the last match *)
Fixpoint replace_go (pat fmt : string) (skip : nat) (pre s : string) : string :=
  match s with
  | EmptyString => EmptyString
  | String c rest =>
    match skip with
    | S k => replace_go pat fmt k EmptyString rest
    | O =>
      if prefix pat s then fmt_go fmt pat pre (drop (String.length pat) s) +++ replace_go pat fmt (String.length pat - 1) EmptyString rest
      else String c (replace_go pat fmt 0 (pre +++ String c EmptyString) rest)
    end
  end.
Definition regex_replace (s pat fmt : string) : string := replace_go pat fmt 0 EmptyString s.

(** mrpt::format("%05u", n) *)
Fixpoint zeros (n : nat) : string := match n with O => EmptyString | S n => String "0" (zeros n) end.
Definition dec (n : N) : string := NilZero.string_of_uint (N.to_uint n).
Definition fmt05u (n : N) : string := let d := dec n in zeros (5 - String.length d) +++ d.

(** lines 413-415: the identifier of a map, 64 bits, cast to unsigned int; 0 without one *)
Definition id32 (m : MMap) : N := match mm_id m with Some i => (N.of_nat i mod 2 ^ 32)%N | None => 0%N end.
(** lines 421-423 *)
Definition label_or_empty (m : MMap) : string := match mm_label m with Some l => l | None => EmptyString end.

(** lines 403-438: the placeholders are replaced one kind after another *)
Definition log_filename (format : string) (unique_id : N) (global local : MMap) : string :=
  let f := regex_replace format "$UNIQUE_ID" (fmt05u unique_id) in
  let f := regex_replace f "$GLOBAL_ID" (fmt05u (id32 global)) in
  let f := regex_replace f "$GLOBAL_LABEL" (label_or_empty global) in
  let f := regex_replace f "$LOCAL_ID" (fmt05u (id32 local)) in
  regex_replace f "$LOCAL_LABEL" (label_or_empty local).
(** Parameters.h 79-81 *)
Definition default_format : string := "icp-run-$UNIQUE_ID-local-$LOCAL_ID$LOCAL_LABEL-global-$GLOBAL_ID$GLOBAL_LABEL.icplog".

(** ** The record *)
Section Log.
Context {PP PL PN LL NN W Env P Cov FS : Type}.
Notation pairings := (Pairings PP PL PN LL NN W).
Notation Comps := (@Components PP PL PN LL NN W Env P).
Notation Results := (@IcpResults PP PL PN LL NN W P).
Variable pose_minus : P -> P -> P.
Variable log_norms : P -> Q * Q.
Variable tnorm : P -> Q.
Variable realize : nat -> Env -> res Env.
Variable fresh_match_state : Env -> Env.
(** mp2p_icp::covariance, line 334-335 (see CovModel) *)
Variable covariance : pairings -> P -> res Cov.
(** getVariableValues() of the source attached to the first matcher *)
Variable variables : Env -> list (string * Q).

(** Parameters.h 85-89: functor_before_logging_{local,global}; it may change the map and the objects of its layers *)
Definition Functor_ := Heap -> MMap -> res (Heap * MMap).
Record LParams := mkLP { lp_icp : IcpParams; lp_decimation : N; lp_format : string; lp_local : option Functor_; lp_global : option Functor_ }.
(** LogRecord.h 43-68 *)
Record Log := mkLog {
  lg_global : MMap; lg_local : MMap; lg_guess : P; lg_params : LParams; lg_result : Results * Cov;
  lg_variables : list (string * Q); lg_details : list (nat * (P * pairings)) }.
(** the bytes of a record: what LogRecord::serializeTo writes, the objects of the layers included *)
Definition contents (h : Heap) (m : MMap) : list (Name * option Obj) :=
  map (fun l => (fst l, match snd l with Some a => nth_error h a | None => None end)) (mm_layers m).
Record LogFile := mkFile { f_log : Log; f_global : list (Name * option Obj); f_local : list (Name * option Obj) }.
Definition file_of (h : Heap) (l : Log) : LogFile := mkFile l (contents h (lg_global l)) (contents h (lg_local l)).
(** lines 440-467 *)
Variable write : FS -> string -> LogFile -> FS * bool.

Record World := mkWorld { w_env : Env; w_heap : Heap; w_counter : N; w_fs : FS }.

(** lines 384-468 *)
Definition save_log_file (l : Log) (w : World) : World :=
  if negb (generateDebugFiles (lp_icp (lg_params l))) then w else
  let '(counter, number) := save_log_step (lp_decimation (lg_params l)) (w_counter w) in
  let w := mkWorld (w_env w) (w_heap w) counter (w_fs w) in
  match number with
  | None => w
  | Some id =>
    let filename := log_filename (lp_format (lg_params l)) id (lg_global l) (lg_local l) in
    mkWorld (w_env w) (w_heap w) (w_counter w) (fst (write (w_fs w) filename (file_of (w_heap w) l)))
  end.

(** lines 355-368: *pc = *currentLog->pcLocal copies the pointers of the layers (MapModel.clone) *)
Definition apply_functor (f : option Functor_) (h : Heap) (m : MMap) : res (Heap * MMap) :=
  match f with None => Ok (h, m) | Some f => f h (clone m) end.

(** lines 36-382.  [attached]: the first matcher is attached to a source of parameters before the call; the loop attaches
    all of them at the start of its first iteration (lines 87-97, 131).  Line 351 dereferences the pointer unchecked. *)
Definition align_log (c : Comps) (p : LParams) (attached want : bool) (global local : MMap) (guess : P) (w : World)
    : res (World * (Results * Cov) * option Log) :=
  let* r := align pose_minus log_norms tnorm realize fresh_match_state c (lp_icp p) (mm_empty global) (mm_empty local) want guess (w_env w) in
  let '(env, res_) := r in
  let* cov := covariance (r_finalPairings res_) (r_optimal_tf res_) in
  let result := (res_, cov) in
  if want || generateDebugFiles (lp_icp p) then
    let* vars := if attached || Nat.ltb 0 (maxIterations (lp_icp p)) then Ok (variables env) else UB in
    let* lo := apply_functor (lp_local p) (w_heap w) local in
    let* gl := apply_functor (lp_global p) (fst lo) global in
    let log := mkLog (snd gl) (snd lo) guess p result vars (r_iterationDetails res_) in
    let w := save_log_file log (mkWorld env (fst gl) (w_counter w) (w_fs w)) in
    Ok (w, result, if want then Some log else None)
  else Ok (mkWorld env (w_heap w) (w_counter w) (w_fs w), result, None).
End Log.
