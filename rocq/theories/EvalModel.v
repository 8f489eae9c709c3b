(** Model of the two command line tools that are built beside the node:
    src/registration/ndt2d_visual.cpp (compares the matchers on recorded scans) and
    src/ndt/ndt_grid2d_merging.cpp (builds a map from recorded scans and poses).

    Not represented: what is printed besides the final figures, clocks, windows, the
    functions that main does not reach (visual: testSkip; merging: everything but
    preparePoseData, prepareLaserScans and mappingKnownPoses) and conversions between
    float and double.  The projection of a laser message to points (laser_geometry) and the
    readings of numbers (atof, stod, stoi) are parameters. *)
From Coq Require Import Reals List ZArith Bool Arith String Ascii.
From Verif Require Import Base LinAlg3 GeoModel UtilModel.
Import ListNotations.
Open Scope nat_scope.

Definition s_ (x : string) : str := list_ascii_of_string x.
Definition comma : str := s_ ",".

(** The lines of a file that std::getline gives, at most [max] of them
    (visual 93, 130; merging 84, 122).  A file that cannot be opened gives no
    line (visual 87-89, 124-126; merging 78-80, 116-118). *)
Definition fileLines (max : Z) (f : option (list str)) : list str :=
  match f with Some l => firstn (Z.to_nat max) l | None => [] end.

(** visual 63-74, and string_tools.h:21-34 which merging uses; one round more than there
    are characters is enough (C57) *)
Definition fields (line : str) : res (list str) :=
  match split (S (List.length line)) line comma with Some p => Ok p | None => UB end.

(** sensor_msgs::LaserScan as filled at visual 96-107, merging 87-98; the constant members
    are left out *)
Record laser := mkLaser { l_min : R; l_inc : R; l_ranges : list R }.

Section Read.
  Variable atof : str -> R.

  (** visual 130-136, merging 122-128 *)
  Definition readPose (acc : list pose) (line : str) : res (list pose) :=
    do p <- fields line;
    do x <- vget p 1; do y <- vget p 2; do a <- vget p 3;
    Ok (acc ++ [mkP (atof x) (atof y) (atof a)]).
  (** visual 117-138, merging 109-131 *)
  Definition preparePoseData (max : Z) (f : option (list str)) : res (list pose) :=
    foldM readPose (fileLines max f) [].

  (** visual 93-113, merging 84-104 *)
  Definition readScan (acc : list laser) (line : str) : res (list laser) :=
    do p <- fields line;
    do a <- vget p 1; do b <- vget p 2;
    Ok (acc ++ [mkLaser (atof a) (atof b) (map atof (skipn 4 p))]).
  (** visual 76-115, merging 67-107 *)
  Definition prepareLaserScans (max : Z) (f : option (list str)) : res (list laser) :=
    foldM readScan (fileLines max f) [].
End Read.

(** The matchers of visual (313-331) and what they are given: the points of a scan, the
    grid that initializeSimple makes of them with cells of 0.25 (164-169), or the means of
    that grid. *)
Inductive engine := P2D | D2D | Corr | Robust | Icp.
Inductive given (A : Type) := Points (c : A) | Cells (c : A) | Means (c : A).
Arguments Points {A} c. Arguments Cells {A} c. Arguments Means {A} c.

Definition is_ (a : str) (b : string) : bool := if list_eq_dec ascii_dec a (s_ b) then true else false.

(** visual 313-331; [None] is the null pointer of line 55 *)
Definition newMatcher (mode : str) : option engine :=
  if is_ mode "basic" then Some P2D else
  if is_ mode "d2d" then Some D2D else
  if is_ mode "corr" then Some Corr else
  if is_ mode "corr_full" then Some Corr else
  if is_ mode "robust" then Some Robust else
  if is_ mode "proof" then Some Icp else
  if is_ mode "p2d" then Some P2D else
  if is_ mode "icpNDT" then Some Icp else None.

(** visual 160-204: source and target *)
Definition inputs {A} (mode : str) (s t : A) : option (given A * given A) :=
  if is_ mode "proof" then Some (Points s, Points t) else
  if is_ mode "d2d" then Some (Cells s, Cells t) else
  if is_ mode "corr" then Some (Means s, Means t) else
  if is_ mode "robust" then Some (Cells s, Cells t) else
  if is_ mode "corr_full" then Some (Points s, Points t) else
  if is_ mode "basic" then Some (Means s, Cells t) else
  if is_ mode "p2d" then Some (Points s, Cells t) else
  if is_ mode "icpNDT" then Some (Means s, Means t) else None.

(** visual 231: at most one match more than this *)
Definition max_matchings : Z := 1000.
(** visual 51 *)
Definition MAX_LINES_v : Z := 1000000.

(** What the end of visual's test() prints (256-263): the number of matchings and the
    average error; [None] if the latter is a division by zero. *)
Record report := mkRep { r_n : nat; r_err : option pose }.
(** total_error_ (61), target and iterations (227-228), and the matcher *)
Record tstate (M : Type) := mkTs { t_total : pose; t_target : nat; t_iter : nat; t_m : M }.
Arguments mkTs {M}. Arguments t_total {M}. Arguments t_target {M}. Arguments t_iter {M}. Arguments t_m {M}.

Definition absDiff (p q : pose) : pose :=
  mkP (Rabs (px p - px q)) (Rabs (py p - py q)) (Rabs (pth p - pth q)).
Definition padd (p q : pose) : pose := mkP (px p + px q) (py p + py q) (pth p + pth q).
Definition pdiv (p : pose) (k : R) : pose := mkP (px p / k) (py p / k) (pth p / k).
(** visual 61: Vector3d::Identity() *)
Definition total0 : pose := mkP 1 0 0.

(** Matrix product of the first pose's inverse and the second pose: visual 154-156,
    235-237, merging 397-399 *)
Definition relTrans (from to : pose) : T2 := t2mul (t2inv (getTransFromPose from)) (getTransFromPose to).

Section Visual.
  Context {A M : Type}.
  Variable align : engine -> M -> given A -> given A -> M * T2.
  Variable mode : str.
  Variable eng : option engine.
  Variables (minDisp minRot : R).
  Variable poses : list pose.
  Variable scans : list A.

  (** visual 140-222, testMatch.  The matcher is asked for its final transformation
      whether or not it converged (210-212); it starts from the
      identity (205). *)
  Definition testMatch (st : tstate M) (source target : nat) : res (tstate M) :=
    do pt <- vget poses target; do ps <- vget poses source;
    let real := getPoseFromTransform (relTrans pt ps) in
    do ss <- vget scans source; do ts <- vget scans target;
    match eng, inputs mode ss ts with
    | Some e, Some (i, o) =>
        let r := align e (t_m st) i o in
        Ok (mkTs (padd (t_total st) (absDiff real (getPoseFromTransform (snd r))))
                 (t_target st) (t_iter st) (fst r))
    | _, _ => UB
    end.

  (** visual 234-253 *)
  Fixpoint testLoop (is : list nat) (st : tstate M) : res (tstate M) :=
    match is with
    | [] => Ok st
    | i :: r =>
        do pt <- vget poses (t_target st); do pi <- vget poses i;
        let real := relTrans pt pi in
        if Rlt_dec minRot (Rabs (getAngle real)) then
          if Rlt_dec minDisp (getDisplacement real) then
            do st' <- testMatch st i (t_target st);
            let st'' := mkTs (t_total st') i (S (t_iter st')) (t_m st') in
            if (max_matchings <? Z.of_nat (t_iter st''))%Z then Ok st'' else testLoop r st''
          else testLoop r st
        else testLoop r st
    end.

  (** visual 224-266, test(start) *)
  Definition test (start : nat) (m : M) : res report :=
    do st <- testLoop (seq start (List.length scans - start)) (mkTs total0 0 0 m);
    Ok (mkRep (t_iter st) (if t_iter st =? 0 then None else Some (pdiv (t_total st) (INR (t_iter st))))).
End Visual.

(** The end of main: the usage is printed, or the figures. *)
Inductive said := Usage | Figures (r : report).

Section VisualMain.
  Context {A M : Type}.
  Variable align : engine -> M -> given A -> given A -> M * T2.
  Variable m0 : M.
  Variable project : laser -> A.
  Variable atof : str -> R.
  Variable stod : str -> option R.

  Definition num (s : str) : res R := match stod s with Some x => Ok x | None => Throw end.
  Definition known (m : str) : bool :=
    existsb (is_ m) ["d2d"; "basic"; "corr"; "corr_full"; "robust"; "proof"; "p2d"; "icpNDT"]%string.

  (** visual 288-298: args[2] is looked at if there are fewer than three arguments *)
  Definition badArgs (args : list str) : res bool :=
    if List.length args <? 3 then do m <- vget args 2; Ok (negb (known m)) else Ok false.

  (** visual 285-343; [posesFile] and [scansFile] are what the two files of a folder hold *)
  Definition visualMain (args : list str) (posesFile scansFile : str -> option (list str)) : res said :=
    do bad <- badArgs args;
    if bad then Ok Usage else
    do lim <- (if List.length args =? 4 then do a <- vget args 3; do d <- num a; Ok (d, 3 / 10)%R
               else if List.length args =? 5 then
                 do a <- vget args 3; do d <- num a; do b <- vget args 4; do r <- num b; Ok (d, r)
               else Ok (4 / 10, 3 / 10)%R);
    do folder <- vget args 1;
    do poses <- preparePoseData atof MAX_LINES_v (posesFile folder);
    do scans <- prepareLaserScans atof MAX_LINES_v (scansFile folder);
    do mode <- vget args 2;
    do r <- test align mode (newMatcher mode) (fst lim) (snd lim) poses (map project scans) 0 m0;
    Ok (Figures r).
End VisualMain.

(** src/ndt/ndt_grid2d_merging.cpp *)
Section Merging.
  Context {A G : Type}.
  (** setCellSize(0.25) on a new grid (merging 393-394) *)
  Variable g0 : G.
  (** mergeInTraced(scan, pose, true) (merging 400) *)
  Variable merge : G -> A -> pose -> res G.

  (** merging 396-401: size_t arithmetic in the bound of the loop.  The body is run as
      often as the bound says; [Fail] is undefined behaviour. *)
  Definition knownStep (poses : list pose) (scans : list A) (st : nat * G) : flow (nat * G) :=
    match
      (do p0 <- vget poses 0; do pi <- vget poses (fst st);
       do s <- vget scans (fst st);
       merge (snd st) s (getPoseFromTransform (relTrans p0 pi)))
    with Ok g => Next (S (fst st), g) | _ => Fail end.
  Definition first_known : Z := 7000.
  Definition mappingKnownPoses (poses : list pose) (scans : list A) : res G :=
    let bound := u64 (Z.of_nat (List.length scans) - 10000) in
    match iter_N (Z.to_N (bound - first_known)) (knownStep poses scans) (Z.to_nat first_known, g0) with
    | Next st | Break st => Ok (snd st)
    | Fail => UB
    end.

  Variable project : laser -> A.
  Variable atof : str -> R.
  Variable stoi : str -> option Z.
  (** stof and stod: whether the text is a number *)
  Variable isNum : str -> bool.
  Definition int (s : str) : res Z := match stoi s with Some x => Ok x | None => Throw end.
  Definition numeric (s : str) : res unit := if isNum s then Ok tt else Throw.

  (** merging 551-593; the window of 573-576 is never used afterwards and its making is
      left out, and so are the values of 562-570 beyond the exceptions of reading them.
      [None]: the usage was printed. *)
  Definition mergingMain (args : list str) (posesFile scansFile : str -> option (list str)) : res (option G) :=
    if List.length args <? 2 then Ok None else
    do max <- (if 3 <=? List.length args then do a <- vget args 2; do z <- int a; Ok (u64 z) else Ok 5000%Z);
    do _ <- (if 4 <=? List.length args then do a <- vget args 3; numeric a else Ok tt);
    do _ <- (if 8 <=? List.length args then
               do a <- vget args 4; do _ <- numeric a; do b <- vget args 5; do _ <- numeric b;
               do c <- vget args 6; do _ <- int c; do d <- vget args 7; do _ <- int d; Ok tt
             else Ok tt);
    do folder <- vget args 1;
    do poses <- preparePoseData atof (u64 (max * 2)) (posesFile folder);
    do scans <- prepareLaserScans atof max (scansFile folder);
    do g <- mappingKnownPoses poses (map project scans);
    Ok (Some g).
End Merging.
