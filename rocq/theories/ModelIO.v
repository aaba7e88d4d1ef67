(** Model of mav_trajectory_generation/src/io.cpp (and io.h) and of the
    nanosecond accessors of Segment.  Not modelled here:
    sampledTrajectoryStatesToFile (ModelSampling.v). *)
From Coq Require Import ZArith List Bool String.
From Verif Require Import Num ModelPolynomial ModelSegment ModelTrajectory ModelYaml.
Import ListNotations.
Notation length := List.length.

Section IO.
  Context {T : Type} {ops : NumOps T}.
  Local Open Scope num_scope.

  (** segment.h:36-37. *)
  Definition kNumNSecPerSec : T := nofZ (10 ^ 9).
  Definition kNumSecPerNsec : T := nlit 1 (10 ^ 9).

  (** static_cast<uint64_t>(double): truncation; undefined when the truncated
      value is out of range. *)
  Definition to_uint64 (x : T) : outcome Z :=
    match ntoZ x with
    | Some z => if ((0 <=? z) && (z <? 2 ^ 64))%Z then Ok z else UB
    | None => UB
    end.
  (** segment.h:57-59 getTimeNSec. *)
  Definition seg_getTimeNSec (s : segment T) : outcome Z := to_uint64 (kNumNSecPerSec * seg_time s).
  (** segment.h:62 setTimeNSec. *)
  Definition nsec_time (time_ns : Z) : T := nofZ time_ns * kNumSecPerNsec.
  Definition seg_setTimeNSec (s : segment T) (time_ns : Z) : segment T := seg_setTime s (nsec_time time_ns).

  Variable cd : codec T.
  Local Open Scope string_scope.

  (** io.cpp:35-41 coefficientsToYaml. *)
  Definition coefficientsToYaml (c : list T) : yaml := YSeq (map (fun x => YScalar (fmtD cd x)) c).

  (** io.cpp:43-55 segmentToYaml: without dimensions there is no coefficient key. *)
  Definition segmentToYaml (s : segment T) : outcome yaml :=
    ns <-- seg_getTimeNSec s ;;
    let head := [("N", YScalar (fmtZ cd (Z.of_nat (seg_N s)))); ("D", YScalar (fmtZ cd (Z.of_nat (seg_D s)))); ("time", YScalar (fmtZ cd ns))] in
    Ok (YMap (head ++ match seg_polys s with
                      | [] => []
                      | ps => [("coefficients", YSeq (map coefficientsToYaml ps))]
                      end)).

  (** io.cpp:57-63 segmentsToYaml: a null node for no segments. *)
  Definition segmentsToYaml (segs : list (segment T)) : outcome yaml :=
    l <-- omap segmentToYaml segs ;;
    Ok (match l with [] => YNull | _ => YMap [("segments", YSeq l)] end).

  (** io.cpp:65-69 trajectoryToYaml. *)
  Definition trajectoryToYaml (tr : trajectory T) : outcome yaml := segmentsToYaml (tr_segments tr).

  (** io.cpp:71-80 coefficientsFromYaml.  None: returns false. *)
  Definition coefficientsFromYaml (n : ynode) : outcome (option (list T)) :=
    b <-- y_isSeq n ;;
    if b then
      k <-- y_size n ;;
      c <-- omap (fun i => e <-- y_idx cd n i ;; y_asDouble cd e) (seq 0 k) ;;
      Ok (Some c)
    else Ok None.

  (** Segment(int, int) with arguments from outside (segment.h:44-46): a vector
      of negative size is undefined in Eigen; resizing to a negative number of
      polynomials throws.  Exhaustion of memory is not modelled. *)
  Definition seg_make (N D : Z) : outcome (segment T) :=
    if (N <? 0)%Z then UB else if (D <? 0)%Z then Throw else Ok (seg_new (Z.to_nat N) (Z.to_nat D)).

  (** io.cpp:95-99: loop over the dimensions, from i on; the coefficient vector
      replaces the polynomial whatever its size. *)
  Fixpoint read_polys (n : ynode) (i k : nat) : outcome (option (list (list T))) :=
    match k with
    | O => Ok (Some [])
    | S k' =>
        e <-- y_idx cd n i ;;
        c <-- coefficientsFromYaml e ;;
        match c with
        | None => Ok None
        | Some c => rest <-- read_polys n (S i) k' ;; Ok (option_map (cons c) rest)
        end
    end.

  (** io.cpp:82-104 segmentFromYaml.  None: returns false (the contents of the
      output are then not represented). *)
  Definition segmentFromYaml (node : ynode) : outcome (option (segment T)) :=
    nN <-- y_get node "N" ;;
    if negb (y_defined nN) then Ok None else
    nD <-- y_get node "D" ;;
    if negb (y_defined nD) then Ok None else
    nt <-- y_get node "time" ;;
    if negb (y_defined nt) then Ok None else
    nc <-- y_get node "coefficients" ;;
    if negb (y_defined nc) then Ok None else
    b <-- y_isSeq nc ;;
    if negb b then Ok None else
    N <-- y_asInt cd nN ;;
    D <-- y_asInt cd nD ;;
    s <-- seg_make N D ;;
    ps <-- read_polys nc 0 (seg_D s) ;;
    match ps with
    | None => Ok None
    | Some ps =>
        t <-- y_asU64 cd nt ;;
        Ok (Some (seg_setTimeNSec (mkSegment (seg_N s) ps (seg_time s)) t))
    end.

  (** io.cpp:106-116 segmentsFromYaml. *)
  Fixpoint read_segments (node : ynode) (i k : nat) : outcome (option (list (segment T))) :=
    match k with
    | O => Ok (Some [])
    | S k' =>
        e <-- y_idx cd node i ;;
        s <-- segmentFromYaml e ;;
        match s with
        | None => Ok None
        | Some s => rest <-- read_segments node (S i) k' ;; Ok (option_map (cons s) rest)
        end
    end.
  Definition segmentsFromYaml (node : ynode) : outcome (option (list (segment T))) :=
    b <-- y_isSeq node ;;
    if negb b then Ok None else
    k <-- y_size node ;; read_segments node 0 k.

  (** io.cpp:118-126 trajectoryFromYaml: result and trajectory afterwards. *)
  Definition trajectoryFromYaml (node : ynode) (tr : trajectory T) : outcome (bool * trajectory T) :=
    n <-- y_get node "segments" ;;
    segs <-- segmentsFromYaml n ;;
    match segs with
    | None => Ok (false, tr)
    | Some segs => tr' <-- traj_setSegments tr segs ;; Ok (true, tr')
    end.

  (** Files: the contents by name; a file that cannot be opened for reading is
      absent.  [dump] and [load] are the YAML emitter and parser; LoadFile throws
      on a text that is not YAML. *)
  Definition files := string -> option string.
  Variable dump : yaml -> string.
  Variable load : string -> outcome yaml.

  (** io.cpp:128-155: the document written; coefficients(j) is an Eigen access. *)
  Definition segment_document (s : segment T) : outcome yaml :=
    ns <-- seg_getTimeNSec s ;;
    ps <-- omap (fun p => cs <-- omap (fun j => c <-- oget p j ;; Ok (YScalar (fmtD cd c))) (seq 0 (seg_N s)) ;; Ok (YSeq cs)) (seg_polys s) ;;
    Ok (YMap [("N", YScalar (fmtZ cd (Z.of_nat (seg_N s)))); ("D", YScalar (fmtZ cd (Z.of_nat (seg_D s)))); ("time", YScalar (fmtZ cd ns));
              ("coefficients", YSeq ps)]).
  (** io.cpp:128-167 segmentsToFile; [writable]: the stream opens. *)
  Definition segmentsToFile (writable : bool) (fs : files) (filename : string) (segs : list (segment T)) : outcome (bool * files) :=
    l <-- omap segment_document segs ;;
    if writable
    then Ok (true, fun f => if String.eqb f filename then Some (dump (YMap [("segments", YSeq l)])) else fs f)
    else Ok (false, fs).
  (** io.h:48-54 trajectoryToFile. *)
  Definition trajectoryToFile (writable : bool) (fs : files) (filename : string) (tr : trajectory T) : outcome (bool * files) :=
    segmentsToFile writable fs filename (tr_segments tr).

  (** operator[] of the non-const document (io.cpp:184, 185): a sequence is
      turned into a map first. *)
  Definition y_get_top (y : yaml) (k : string) : outcome ynode :=
    match y with YScalar _ => Throw | YMap l => Ok (assoc l k) | _ => Ok None end.

  (** io.cpp:203-212: polynomials j, j+1, ...; None: returns false.  segment[j] =
      coeffs replaces the polynomial. *)
  Fixpoint file_polys (nc : ynode) (N : Z) (j k : nat) : outcome (option (list (list T))) :=
    match k with
    | O => Ok (Some [])
    | S k' =>
        e <-- y_idx cd nc j ;;
        sz <-- y_size e ;;
        if negb (Z.of_nat sz =? N)%Z then Ok None else
        e' <-- y_idx cd nc j ;;
        c <-- omap (fun i => x <-- y_idx cd e' i ;; y_asDouble cd x) (seq 0 (Z.to_nat N)) ;;
        rest <-- file_polys nc N (S j) k' ;; Ok (option_map (cons c) rest)
    end.
  (** io.cpp:188-216: one segment. *)
  Definition file_segment (n : ynode) : outcome (option (segment T)) :=
    nN <-- y_get n "N" ;;
    if negb (y_defined nN) then Ok None else
    nD <-- y_get n "D" ;;
    if negb (y_defined nD) then Ok None else
    nt <-- y_get n "time" ;;
    if negb (y_defined nt) then Ok None else
    nc <-- y_get n "coefficients" ;;
    if negb (y_defined nc) then Ok None else
    N <-- y_asInt cd nN ;;
    D <-- y_asInt cd nD ;;
    s <-- seg_make N D ;;
    t <-- y_asU64 cd nt ;;
    sz <-- y_size nc ;;
    if negb (Z.of_nat sz =? D)%Z then Ok None else
    ps <-- file_polys nc N 0 (Z.to_nat D) ;;
    match ps with
    | None => Ok None
    | Some ps => Ok (Some (mkSegment (seg_N s) ps (seg_time (seg_setTimeNSec s t))))
    end.
  (** io.cpp:187-217; the output vector holds the segments read before a failure:
      (true, all) or (false, those). *)
  Fixpoint file_segments (n : ynode) (i k : nat) : outcome (bool * list (segment T)) :=
    match k with
    | O => Ok (true, [])
    | S k' =>
        e <-- y_idx cd n i ;;
        s <-- file_segment e ;;
        match s with
        | None => Ok (false, [])
        | Some s => r <-- file_segments n (S i) k' ;; Ok (fst r, s :: snd r)
        end
    end.
  (** io.cpp:169-219 segmentsFromFile: result and output vector; [segs0] is the
      vector passed in, kept if the file cannot be read. *)
  Definition segmentsFromFile (fs : files) (filename : string) (segs0 : list (segment T)) : outcome (bool * list (segment T)) :=
    match fs filename with
    | None => Ok (false, segs0)
    | Some text =>
        y <-- load text ;;
        n <-- y_get_top y "segments" ;;
        if y_defined n then k <-- y_size n ;; file_segments n 0 k
        else Ok (false, [])
    end.
  (** io.h:56-63 trajectoryFromFile: setSegments is called whatever the result. *)
  Definition trajectoryFromFile (fs : files) (filename : string) (tr : trajectory T) : outcome (bool * trajectory T) :=
    r <-- segmentsFromFile fs filename [] ;;
    tr' <-- traj_setSegments tr (snd r) ;;
    Ok (fst r, tr').
End IO.
