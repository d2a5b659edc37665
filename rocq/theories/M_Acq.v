(** Model of the acquisition code: source and receiver files, unique shot numbers, per-shot windows,
    shot distribution over domains, random shot selection, supershot encoding, shot thinning, sorting of
    traces into components, local and global receivers, wavelet polarity.
    Anchors: src/Acquisition/AcquisitionSettings.hpp, src/Acquisition/Sources.cpp,
    src/Acquisition/AcquisitionGeometry.cpp, src/Partitioning/Partitioning.hpp, src/Common/Common.hpp,
    src/Simulation.cpp. *)
From Coq Require Import Ascii String QArith Qround.
From Verif Require Import Base M_Grid.
Open Scope Z_scope.

(** * Files *)

(** File content and std::string: lists of bytes. *)
Definition str := list ascii.
Definition nl : ascii := ascii_of_nat 10.
Definition hash : ascii := "#"%char.

(** isspace in the "C" locale, used by std::all_of (AcquisitionSettings.hpp 66) and by operator>>:
    space, \t, \n, \v, \f, \r.  (isspace of a negative char is not modelled: bytes 128-255 count as
    non-space, which is what glibc does.) *)
Definition isspace (c : ascii) : bool :=
  let n := nat_of_ascii c in (Nat.eqb n 32 || (Nat.leb 9 n && Nat.leb n 13))%bool.

(** while (getline(istream, line)), AcquisitionSettings.hpp 62: a trailing newline does not start
    another line. *)
Fixpoint getlines (s : str) : list str :=
  match s with
  | [] => []
  | c :: r => if Ascii.eqb c nl then [] :: getlines r
              else match getlines r with [] => [[c]] | l :: ls => (c :: l) :: ls end
  end.

(** (firstChar == '#') || line.empty() || all_of(line, isspace), lines 66-67.  peek on an empty
    stringstream gives EOF, which is not '#'. *)
Definition skipped (line : str) : bool :=
  match line with
  | [] => true
  | c :: _ => (Ascii.eqb c hash || forallb isspace line)%bool
  end.

(** while (strings >> tempStr) vecStrings.push_back(tempStr), lines 71-74. *)
Fixpoint words_acc (s cur : str) : list str :=
  match s with
  | [] => match cur with [] => [] | _ => [rev cur] end
  | c :: r => if isspace c then match cur with [] => words_acc r [] | _ => rev cur :: words_acc r [] end
              else words_acc r (c :: cur)
  end.
Definition words (s : str) : list str := words_acc s [].

Definition isdigit (c : ascii) : bool :=
  let n := nat_of_ascii c in (Nat.leb 48 n && Nat.leb n 57)%bool.
Definition digit (c : ascii) : Z := Z.of_nat (nat_of_ascii c) - 48.

(** The longest prefix of digits, accumulated from the left. *)
Fixpoint digits_val (s : str) (acc : Z) : Z :=
  match s with
  | c :: r => if isdigit c then digits_val r (10 * acc + digit c) else acc
  | [] => acc
  end.
Definition starts_digit (s : str) : bool := match s with c :: _ => isdigit c | [] => false end.

(** std::stoi (strtol base 10): skips white space, takes an optional sign and the longest run of digits,
    ignores whatever follows; throws invalid_argument without digits and out_of_range outside int.  Both
    exceptions are turned into COMMON_THROWEXCEPTION (lines 92-98). *)
Fixpoint skip_space (s : str) : str :=
  match s with c :: r => if isspace c then skip_space r else s | [] => [] end.
Definition split_sign (s : str) : Z * str :=
  match s with
  | c :: r => if Ascii.eqb c "-"%char then (-1, r) else if Ascii.eqb c "+"%char then (1, r) else (1, s)
  | [] => (1, s)
  end.
Definition stoi (s : str) : res Z :=
  let '(sign, s) := split_sign (skip_space s) in
  if starts_digit s then
    let v := sign * digits_val s 0 in
    if (-2147483648 <=? v) && (v <=? 2147483647) then Ok v else Throw
  else Throw.

Section Files.
  (** Floating point values and std::stof are abstract: [stof s] is [None] when std::stof throws. *)
  Variable F : Type.
  Variable stof : str -> option F.

  (** struct sourceSettings, AcquisitionSettings.hpp 22-38. *)
  Record source := mkSrc {
    sourceNo : Z; sourceCoords : coord; sourceType : Z; waveletType : Z; waveletShape : Z;
    fc : F; amp : F; tShift : F; row : Z }.

  Definition stof_ (s : str) : res F := match stof s with Some v => Ok v | None => Throw end.

  (** One line of the source file after the comment test, lines 69-100. *)
  Definition read_source_line (line : str) (row_index : Z) : res source :=
    match words line with
    | [t0; t1; t2; t3; t4; t5; t6; t7; t8; t9] =>
        n <- stoi t0 ;; x <- stoi t1 ;; y <- stoi t2 ;; z <- stoi t3 ;;
        st <- stoi t4 ;; wt <- stoi t5 ;; ws <- stoi t6 ;;
        f <- stof_ t7 ;; a <- stof_ t8 ;; t <- stof_ t9 ;;
        Ok (mkSrc n (mkC x y z) st wt ws f a t row_index)
    | _ => Throw
    end.

  (** The loop over lines, 61-103; [row_index] is the value before the line. *)
  Fixpoint read_sources_loop (ls : list str) (row_index : Z) : res (list source) :=
    match ls with
    | [] => Ok []
    | line :: r =>
        if skipped line then read_sources_loop r row_index
        else s <- read_source_line line (row_index + 1) ;;
             rest <- read_sources_loop r (row_index + 1) ;; Ok (s :: rest)
    end.

  (** readAllSettings for sources, lines 54-109; [None] is a file that cannot be opened. *)
  Definition readAllSources (file : option str) : res (list source) :=
    match file with
    | None => Throw
    | Some content => read_sources_loop (getlines content) (-1)
    end.

  (** struct receiverSettings, lines 42-47. *)
  Record receiver := mkRec { receiverCoords : coord; receiverType : Z }.

  (** readAllSettings for receivers, lines 238-283. *)
  Definition read_receiver_line (line : str) : res receiver :=
    match words line with
    | [t0; t1; t2; t3] =>
        x <- stoi t0 ;; y <- stoi t1 ;; z <- stoi t2 ;; t <- stoi t3 ;; Ok (mkRec (mkC x y z) t)
    | _ => Throw
    end.
  Fixpoint read_receivers_loop (ls : list str) : res (list receiver) :=
    match ls with
    | [] => Ok []
    | line :: r =>
        if skipped line then read_receivers_loop r
        else s <- read_receiver_line line ;; rest <- read_receivers_loop r ;; Ok (s :: rest)
    end.
  Definition readAllReceivers (file : option str) : res (list receiver) :=
    match file with
    | None => Throw
    | Some content => read_receivers_loop (getlines content)
    end.

  (** * Shot numbers *)

  (** createSettingsForShot, lines 118-127 (std::abs of INT_MIN is not modelled). *)
  Definition createSettingsForShot (all : list source) (shotNumber : Z) : list source :=
    filter (fun s => Z.abs (sourceNo s) =? shotNumber) all.

  (** calcuniqueShotNo, lines 190-202: starts with the first source (undefined behaviour on an empty
      list) and then appends every number std::find does not find. *)
  Definition uniq_step (acc : list Z) (s : source) : list Z :=
    let n := Z.abs (sourceNo s) in if existsb (Z.eqb n) acc then acc else acc ++ [n].
  Definition calcuniqueShotNo (l : list source) : res (list Z) :=
    match l with
    | [] => UB
    | s0 :: _ => Ok (fold_left uniq_step l [Z.abs (sourceNo s0)])
    end.

  (** getuniqueShotInd, lines 208-231: the argument is left unchanged when the number is not found. *)
  Fixpoint find_ind (nos : list Z) (i shotInd shotNumber : Z) : Z :=
    match nos with
    | [] => shotInd
    | n :: r => if n =? shotNumber then i else find_ind r (i + 1) shotInd shotNumber
    end.
  Definition getuniqueShotInd (shotInd : Z) (nos : list Z) (shotNumber : Z) : Z :=
    find_ind nos 0 shotInd shotNumber.

  (** * Windows *)

  (** getSettingsPerShot for sources, lines 135-158: one cut coordinate per source; z is only tested when
      NZ > 2*BoundaryWidth. *)
  Definition cut_coord (c cut : coord) (NX NY NZ BW : Z) : res coord :=
    let x := cx c - cx cut in
    _ <- assert (BW <=? x) ;; _ <- assert (x <? NX - BW) ;;
    let y := cy c - cy cut in
    _ <- assert (BW <=? y) ;; _ <- assert (y <? NY - BW) ;;
    let z := cz c - cz cut in
    _ <- (if BW * 2 <? NZ then _ <- assert (BW <=? z) ;; assert (z <? NZ - BW) else Ok tt) ;;
    Ok (mkC x y z).
  Definition set_coords (s : source) (c : coord) : source :=
    mkSrc (sourceNo s) c (sourceType s) (waveletType s) (waveletShape s) (fc s) (amp s) (tShift s) (row s).
  Fixpoint getSettingsPerShot (all : list source) (cuts : list coord) (NX NY NZ BW : Z)
    : res (list source) :=
    match all with
    | [] => Ok []
    | s :: r => match cuts with
                | [] => UB  (* cutCoordinates[i] out of range *)
                | c :: cs => q <- cut_coord (sourceCoords s) c NX NY NZ BW ;;
                             rest <- getSettingsPerShot r cs NX NY NZ BW ;;
                             Ok (set_coords s q :: rest)
                end
    end.

  (** getSettingsPerShot for receivers, lines 160-183: one cut coordinate for all. *)
  Fixpoint getReceiversPerShot (all : list receiver) (cut : coord) (NX NY NZ BW : Z)
    : res (list receiver) :=
    match all with
    | [] => Ok []
    | s :: r => q <- cut_coord (receiverCoords s) cut NX NY NZ BW ;;
                rest <- getReceiversPerShot r cut NX NY NZ BW ;;
                Ok (mkRec q (receiverType s) :: rest)
    end.

  (** getCutCoord, lines 361-401.  [x0residual] = round((x0-x0Big)/DH); [encode] = useSourceEncode,
      [dom] = NumShotDomains, the assertion DH == DHBig is omitted (it concerns two configuration values).
      ceil(n/dom) is exact. *)
  Definition cceil (a b : Z) : Z := - ((- a) / b).
  Definition minX_of (x0 : Z) (l : list source) : Z :=
    fold_left (fun m s => if cx (sourceCoords s) <? m then cx (sourceCoords s) else m) l x0.
  Fixpoint cut_loop (l : list source) (i scx minX encode perSuper : Z) : res (list coord) :=
    match l with
    | [] => Ok []
    | s :: r =>
        scx' <- (if 0 <=? sourceNo s then
                   if encode =? 0 then Ok (cx (sourceCoords s))
                   else if encode =? 3 then
                          m <- crem i perSuper ;; Ok (if m =? 0 then cx (sourceCoords s) else scx)
                        else Ok scx
                 else Ok scx) ;;
        _ <- assert (negb (scx' =? 0)) ;;
        rest <- cut_loop r (i + 1) scx' minX encode perSuper ;;
        Ok (mkC (if 0 <? scx' - minX then scx' - minX else 0) 0 0 :: rest)
    end.
  Definition getCutCoord (l : list source) (x0residual encode dom : Z) : res (list coord) :=
    u <- calcuniqueShotNo l ;;
    _ <- assert (Nat.eqb (List.length l) (List.length u)) ;;
    match l with
    | [] => UB
    | s0 :: _ => let minX := minX_of (cx (sourceCoords s0)) l - x0residual in
                 cut_loop l 0 0 minX encode (cceil (Z.of_nat (List.length l)) dom)
    end.

  (** * Supershot encoding: Sources::calcSourceSettingsEncode, Sources.cpp 569-683.  The supershot numbers
      are [dom * 1e4 + 1 + index].  The frequency selection of the gradientDomain branch (657-681) is in
      M_Freq.  The random numbers std::rand() form an arbitrary sequence [rnd], read from position [p]. *)
  Definition set_no (s : source) (n : Z) : source :=
    mkSrc n (sourceCoords s) (sourceType s) (waveletType s) (waveletShape s) (fc s) (amp s) (tShift s) (row s).
  Definition set_amp (s : source) (a : F) : source :=
    mkSrc (sourceNo s) (sourceCoords s) (sourceType s) (waveletType s) (waveletShape s) (fc s) a (tShift s) (row s).
  Definition super_no (dom ind : Z) : Z := dom * 10000 + 1 + ind.
End Files.
Arguments sourceNo {F}. Arguments sourceCoords {F}. Arguments sourceType {F}. Arguments waveletType {F}.
Arguments waveletShape {F}. Arguments fc {F}. Arguments amp {F}. Arguments tShift {F}. Arguments row {F}.
Arguments mkSrc {F}. Arguments set_no {F}. Arguments set_amp {F}. Arguments set_coords {F}.
Arguments calcuniqueShotNo {F}. Arguments createSettingsForShot {F}. Arguments getSettingsPerShot {F}.
Arguments uniq_step {F}. Arguments getCutCoord {F}. Arguments cut_loop {F}. Arguments minX_of {F}.

(** Replace position [i] of a std::vector; out of range is undefined behaviour. *)
Fixpoint nset {A} (v : list A) (i : nat) (a : A) : option (list A) :=
  match v, i with
  | [], _ => None
  | _ :: r, O => Some (a :: r)
  | b :: r, S i => match nset r i a with Some r' => Some (b :: r') | None => None end
  end.
Definition vset {A} (v : list A) (i : Z) (a : A) : res (list A) :=
  if i <? 0 then UB else match nset v (Z.to_nat i) a with Some v' => Ok v' | None => UB end.

Section Encode.
  Context {F : Type} (neg : F -> F).  (** amp *= -1 *)
  Variable rnd : nat -> Z.

  (** The rejection loop, Sources.cpp 632-635: draw until the supershot has room. *)
  Fixpoint draw (fuel : nat) (p : nat) (dom cap : Z) (hist : list Z) : res (Z * nat) :=
    match fuel with
    | O => Fuel
    | S fuel => ind <- crem (rnd p) dom ;; h <- vget hist ind ;;
                if cap <=? h then draw fuel (S p) dom cap hist else Ok (ind, S p)
    end.

  (** Mode 1, lines 625-641. *)
  Fixpoint encode1_loop (fuel : nat) (l : list (source F)) (shotInd : Z) (p : nat) (dom cap : Z)
    (hist : list Z) : res (list (source F) * nat) :=
    match l with
    | [] => Ok ([], p)
    | s :: r =>
        ' (ind, p') <- (if shotInd <? dom then Ok (shotInd, p) else draw fuel p dom cap hist) ;;
        h <- vget hist ind ;; hist' <- vset hist ind (h + 1) ;;
        ' (rest, p'') <- encode1_loop fuel r (shotInd + 1) p' dom cap hist' ;;
        Ok (set_no s (super_no dom ind) :: rest, p'')
    end.
  (** Random polarity, lines 642-646. *)
  Fixpoint encode1_sign (l : list (source F)) (p : nat) : list (source F) :=
    match l with
    | [] => []
    | s :: r => (if 0 <? Z.rem (rnd p) 2 then s else set_amp s (neg (amp s))) :: encode1_sign r (S p)
    end.
  (** Modes 2 and 3, lines 647-655. *)
  Fixpoint encode2_loop (l : list (source F)) (shotInd dom : Z) : res (list (source F)) :=
    match l with
    | [] => Ok []
    | s :: r => ind <- crem shotInd dom ;; rest <- encode2_loop r (shotInd + 1) dom ;;
                Ok (set_no s (super_no dom ind) :: rest)
    end.
  Fixpoint encode3_loop (l : list (source F)) (shotInd dom cap : Z) : res (list (source F)) :=
    match l with
    | [] => Ok []
    | s :: r => ind <- cdiv shotInd cap ;; rest <- encode3_loop r (shotInd + 1) dom cap ;;
                Ok (set_no s (super_no dom ind) :: rest)
    end.
  (** The useSourceEncode != 0 part; [l] = sourceSettingsShotIncr, [dom] = numShotDomains after
      checkNumShotDomains.  Any other value of useSourceEncode leaves the shot numbers unchanged. *)
  Definition encode (fuel : nat) (mode : Z) (l : list (source F)) (dom : Z) : res (list (source F)) :=
    if dom =? 0 then UB else
    let cap := cceil (Z.of_nat (List.length l)) dom in
    if mode =? 1 then
      ' (l', p) <- encode1_loop fuel l 0 0 dom cap (repeat 0 (Z.to_nat dom)) ;; Ok (encode1_sign l' p)
    else if mode =? 2 then encode2_loop l 0 dom
    else if mode =? 3 then encode3_loop l 0 dom cap
    else Ok l.
End Encode.

(** * Random shot selection: getRandomShotInds, AcquisitionSettings.hpp 436-483. *)
Section Random.
  Variable rnd : nat -> Z.

  (** Mode 1, lines 441-462.  [d] = shotDomainInd; a rejected draw repeats the same [d]. *)
  Fixpoint random1 (fuel : nat) (p : nat) (d dom numshots maxcount : Z)
    (rhist inds shist : list Z) : res (list Z * list Z) :=
    match fuel with
    | O => Fuel
    | S fuel =>
        if d <? dom then
          r <- crem (rnd p) numshots ;;
          rhist <- vset rhist d r ;;
          let repeated := existsb (Z.eqb r) (firstn (Z.to_nat d) rhist) in
          h <- vget shist r ;;
          if (maxcount <=? h) || repeated
          then random1 fuel (S p) d dom numshots maxcount rhist inds shist
          else inds <- vset inds d r ;; shist <- vset shist r (h + 1) ;;
               random1 fuel (S p) (d + 1) dom numshots maxcount rhist inds shist
        else Ok (inds, shist)
    end.

  (** Modes 2 and 3, lines 463-481: the k-th index is [f k] reduced modulo numshots. *)
  Fixpoint random_seq (f : Z -> Z) (k : nat) (d numshots : Z) (inds shist : list Z)
    : res (list Z * list Z) :=
    match k with
    | O => Ok (inds, shist)
    | S k => r <- crem (f d) numshots ;; inds <- vset inds d r ;;
             h <- vget shist r ;; shist <- vset shist r (h + 1) ;;
             random_seq f k (d + 1) numshots inds shist
    end.

  (** [inds] = uniqueShotInds on entry (its size is numShotDomains), [shist] = shotHistory.
      std::accumulate is the sum; ceil(numshots/numShotDomains) is exact. *)
  Definition getRandomShotInds (fuel : nat) (mode : Z) (inds shist : list Z) (numshots maxcount : Z)
    : res (list Z * list Z) :=
    let dom := Z.of_nat (List.length inds) in
    if mode =? 1 then random1 fuel 0 0 dom numshots maxcount (repeat 0 (List.length inds)) inds shist
    else if mode =? 2 then
      sum <- cdiv (zsum shist) dom ;;
      let step := cceil numshots dom in
      random_seq (fun d => sum + d * step) (List.length inds) 0 numshots inds shist
    else if mode =? 3 then
      sum <- cdiv (zsum shist) dom ;;
      random_seq (fun d => sum * dom + d) (List.length inds) 0 numshots inds shist
    else Ok (inds, shist).
End Random.

(** * Shot thinning: Sources::getAcquisitionSettings, Sources.cpp 500-560, after the file was read.
    The kept list is represented by the list shotIndsIncr of kept indices; sourceSettingsShotIncr is the
    list of the corresponding settings (both are pushed together).  shotIncr and DH are rationals;
    round is rounding to nearest, halves away from zero. *)
Definition round_half (q : Q) : Z :=
  if Qle_bool 0 q then Qfloor (q + (1 # 2)) else Qceiling (q - (1 # 2)).

Section Thin.
  Variable len : list Z.      (* sourceLength *)
  Variable shotIncr DH : Q.
  Variable len0 : Z.          (* sourceLength[0] *)
  Variable numshots : Z.

  Definition incr_step (numshotsIncr : Z) : Z :=
    round_half (shotIncr * inject_Z (numshotsIncr + 1) / DH).

  (** The loop 533-555; [kept] = shotIndsIncr.  The assignment shotInd-- followed by the shotInd++ of the
      loop repeats the same index. *)
  Fixpoint thin_loop (fuel : nat) (shotInd numshotsIncr shotIncrInd : Z) (kept : list Z)
    : res (list Z) :=
    match fuel with
    | O => Fuel
    | S fuel =>
        if shotInd <? numshots - 1 then
          a <- vget len shotInd ;; b <- vget len (shotInd + 1) ;;
          last <- vget kept numshotsIncr ;;
          if (a <=? shotIncrInd) && (shotIncrInd <=? b) then
            let '(kept', n') :=
              if negb (last =? shotInd) && (Z.abs (shotIncrInd - a) <? Z.abs (shotIncrInd - b))
              then (kept ++ [shotInd], numshotsIncr + 1)
              else if negb (last =? shotInd + 1) && (Z.abs (shotIncrInd - b) <=? Z.abs (shotIncrInd - a))
              then (kept ++ [shotInd + 1], numshotsIncr + 1)
              else (kept, numshotsIncr) in
            thin_loop fuel shotInd n' (len0 + incr_step n') kept'
          else if (shotInd =? numshots - 2) && negb (last =? shotInd + 1)
                  && (Z.abs (shotIncrInd - b) <? Z.abs (b - a))
          then thin_loop fuel (shotInd + 1) numshotsIncr shotIncrInd (kept ++ [shotInd + 1])
          else thin_loop fuel (shotInd + 1) numshotsIncr shotIncrInd kept
        else Ok kept
    end.
End Thin.

(** Choice of the line direction, 516-527: when the first two sources are equally far apart in x and y
    sourceLength stays empty and sourceLength[0] is undefined behaviour. *)
Definition source_line {F} (all : list (source F)) : list Z :=
  match all with
  | s0 :: s1 :: _ =>
      let dx := Z.abs (cx (sourceCoords s0) - cx (sourceCoords s1)) in
      let dy := Z.abs (cy (sourceCoords s0) - cy (sourceCoords s1)) in
      if dy <? dx then map (fun s => cx (sourceCoords s)) all
      else if dx <? dy then map (fun s => cy (sourceCoords s)) all
      else []
  | _ => []
  end.

(** Returns (shotIndsIncr, sourceSettingsShotIncr). *)
Definition thin {F} (fuel : nat) (all : list (source F)) (shotIncr DH : Q) : res (list Z * list (source F)) :=
  let numshots := Z.of_nat (List.length all) in
  if (1 <? numshots) && negb (Qle_bool shotIncr DH) then
    let len := source_line all in
    len0 <- vget len 0 ;;
    kept <- thin_loop len shotIncr DH len0 numshots fuel 0 0 len0 [0] ;;
    settings <- (fix go (l : list Z) : res (list (source F)) :=
                   match l with
                   | [] => Ok []
                   | i :: r => s <- vget all i ;; t <- go r ;; Ok (s :: t)
                   end) kept ;;
    Ok (kept, settings)
  else Ok (zseq 0 (List.length all), all).

(** * Shot domains *)

(** Common::checkNumShotDomains, Common.hpp 465-471. *)
Definition checkNumShotDomains (dom size : Z) : Z := if size <? dom then size else dom.

(** Partitioning::getShotDomain, Partitioning.hpp 43-81.  [def] = ShotDomainDefinition, [node] =
    getNodeId() of this rank, [env] = the environment variable DOMAIN of this rank, [all_set] = whether it
    is set on every rank. *)
Definition getShotDomain (def domConfig size rank node : Z) (env : option Z) (all_set : bool) : res Z :=
  let dom := checkNumShotDomains domConfig size in
  if def =? 0 then
    np <- cdiv size dom ;;
    if negb (size =? dom * np) then Throw else cdiv rank np
  else if def =? 1 then Ok node
  else if negb all_set then Throw
  else match env with Some d => Ok d | None => Throw end.

(** LAMA's block distribution of [n] elements over [p] processes (library code, not part of /repo):
    block size ceil(n/p), process [r] owns [lb, ub). *)
Definition block_size (n p : Z) : Z := (n + p - 1) / p.
Definition block_lb (n p r : Z) : Z := Z.min (r * block_size n p) n.
Definition block_ub (n p r : Z) : Z := Z.min ((r + 1) * block_size n p) n.

(** Sources::calcUniqueShotInds, Sources.cpp 693-717, for useRandomSource == 0: [inds] is the member
    uniqueShotInds on entry; it is appended to without being cleared. *)
Definition calcUniqueShotInds (inds : list Z) (encode n dom : Z) : list Z :=
  inds ++ zseq 0 (Z.to_nat (if encode =? 0 then n else dom)).

(** The shot loop of Simulation.cpp 363-566 for one process with inter-shot rank [r] of [dom] shot domains
    and useRandomSource == 0: the list of shot numbers it simulates, in order.  [n] = number of source
    lines after thinning (shotIndsIncr.size()), [nos] = uniqueShotNos or uniqueShotNosEncode,
    [decomposition] = decomposeWavefieldType.  getUniqueShotInds throws when empty (Sources.cpp 455). *)
Fixpoint shot_body (shots : list Z) (inds : list Z) (n : Z) (nos : list Z) : res (list Z) :=
  match shots with
  | [] => Ok []
  | i :: r => t <- vget inds i ;; _ <- vget (zseq 0 (Z.to_nat n)) i ;; no <- vget nos t ;;
              rest <- shot_body r inds n nos ;; Ok (no :: rest)
  end.
Fixpoint shot_rounds (rounds : nat) (inds : list Z) (shots : list Z) (encode n dom decomposition : Z)
  (nos : list Z) : res (list Z) :=
  match rounds with
  | O => Ok []
  | S rounds =>
      let inds := calcUniqueShotInds inds encode n dom in
      _ <- assert (negb (Nat.eqb (List.length inds) 0)) ;;
      done <- shot_body shots inds n nos ;;
      if decomposition =? 0 then Ok done   (* break, line 565 *)
      else rest <- shot_rounds rounds inds shots encode n dom decomposition nos ;; Ok (done ++ rest)
  end.
(** Including the checks 267-271 and numRand 345-348. *)
Definition shots_of_domain (encode n dom decomposition : Z) (nos : list Z) (r : Z) : res (list Z) :=
  let numshots := if encode =? 0 then Z.of_nat (List.length nos) else dom in
  _ <- assert (dom <=? numshots) ;;
  _ <- (if encode =? 0 then m <- crem numshots dom ;; assert (m =? 0) else Ok tt) ;;
  numRand <- (if decomposition =? 0 then cdiv numshots dom else Ok 2) ;;
  let lb := block_lb numshots dom r in
  let ub := block_ub numshots dom r in
  shot_rounds (Z.to_nat numRand) [] (zseq lb (Z.to_nat (ub - lb))) encode n dom decomposition nos.

(** * Sorting of traces: AcquisitionGeometry::initSeismogramHandler, AcquisitionGeometry.cpp 18-76.
    The four coordinate vectors are filled with setValue at the running count; a type outside 1..4 indexes
    outside the arrays (the test in line 31 is a debug assertion). *)
Fixpoint count_types (types : list Z) (count : list Z) : res (list Z) :=
  match types with
  | [] => Ok count
  | t :: r => c <- vget count (t - 1) ;; count <- vset count (t - 1) (c + 1) ;; count_types r count
  end.
Fixpoint sort_coords (tc : list (Z * Z)) (coord : list (list Z)) (count : list Z)
  : res (list (list Z)) :=
  match tc with
  | [] => Ok coord
  | (t, x) :: r =>
      c <- vget count (t - 1) ;; v <- vget coord (t - 1) ;;
      v <- vset v c x ;; coord <- vset coord (t - 1) v ;; count <- vset count (t - 1) (c + 1) ;;
      sort_coords r coord count
  end.
(** [tc] = the pairs (seismogramTypes[i], coordinates1D[i]); the result are the coordinate vectors of the
    four components. *)
Definition initSeismogramHandler (tc : list (Z * Z)) : res (list (list Z)) :=
  count <- count_types (map fst tc) [0; 0; 0; 0] ;;
  sort_coords tc (map (fun c => repeat 0 (Z.to_nat c)) count) [0; 0; 0; 0].

(** * Global2Local, AcquisitionSettings.hpp 294-324, on one process; [isLocal] = dist->isLocal,
    [size] = dist->getGlobalSize(). *)
Fixpoint g2l_check (coords : list Z) (isLocal : Z -> bool) (size : Z) (i : Z) : res Z :=
  match coords with
  | [] => Ok i
  | c :: r => _ <- assert ((0 <=? c) && (c <? size)) ;;
              g2l_check r isLocal size (if isLocal c then i + 1 else i)
  end.
Fixpoint g2l_fill (coords : list Z) (isLocal : Z -> bool) (n i : Z) (out : list Z) : res (list Z) :=
  match coords with
  | [] => Ok out
  | c :: r => if isLocal c then out <- vset out i n ;; g2l_fill r isLocal (n + 1) (i + 1) out
              else g2l_fill r isLocal (n + 1) i out
  end.
Definition Global2Local (coords : list Z) (isLocal : Z -> bool) (size : Z) : res (list Z) :=
  i <- g2l_check coords isLocal size 0 ;;
  g2l_fill coords isLocal 0 0 (repeat 0 (Z.to_nat i)).

(** * Wavelet polarity: Sources::init, Sources.cpp 36-43: waveletAmp is a vector of IndexType, so the
    floating point amplitude is truncated towards zero; copySignalsToSeismogramHandler 354-387: the factor
    applied to a trace whose wavelet type is not 1. *)
Definition trunc (q : Q) : Z := if Qle_bool 0 q then Qfloor q else Qceiling q.
Definition signAmp (ampl : Q) : Z := if 0 <? trunc ampl then 1 else -1.
Fixpoint map_signal (sign : Z) (trace : list Q) : list Q :=
  match trace with [] => [] | x :: r => Qmult x (inject_Z sign) :: map_signal sign r end.
Definition file_signal (wtype : Z) (ampl : Q) (trace : list Q) : list Q :=
  if wtype =? 1 then trace else map_signal (signAmp ampl) trace.
