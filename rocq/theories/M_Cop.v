(** Model of the collection of single traces to a common offset profile over the shot domains:
    Simulation.cpp 356-567 (the statements on the seismogram handlers), Seismogram::write, setShotInd, allocateCOP,
    sumShotDomain and assignCOP.
    A handler is the list of its four seismograms; a matrix is the list of its rows.  The processes of one shot domain
    are one process here.  Not modelled: refTraces, the envelope and phase files (instantaneousTraces = 0), decode and
    writeReceiverMark.  The recorded traces are parameters. *)
From Coq Require Import Reals String.
From Verif Require Import Base M_Acq M_Wave.
Open Scope Z_scope.
Local Notation length := List.length.

Definition row := list R.
Definition mat := list row.
(** Seismogram.hpp: data, inverseAGC, dataCOP, inverseAGCCOP, shotInd. *)
Record seis := mkSeis { s_data : mat; s_agc : mat; s_cop : mat; s_acop : mat; s_ind : Z }.
Definition handler := list seis.
(** A written file: name without suffix, format, rows. *)
Definition file := (string * Z * mat)%type.

(** SeismogramTypeString and SeismogramTypeStringEM, Acquisition.hpp 28-32, 51-55. *)
Definition typeStrings (seismic : bool) : list string :=
  if seismic then ["p"; "vx"; "vy"; "vz"]%string else ["ez"; "ex"; "ey"; "hz"]%string.

(** SeismogramHandler::allocateCOP, SeismogramHandler.cpp 487-494: allocate fills with zeros (library). *)
Definition zmat (n NT : nat) : mat := repeat (repeat 0%R NT) n.
Definition allocateCOP (n NT : nat) (h : handler) : handler :=
  map (fun s => mkSeis (s_data s) (s_agc s) (zmat n NT) (zmat n NT) (s_ind s)) h.

(** The position of the first seismogram with traces, the loops with break of setShotInd, sumShotDomain and assignCOP
    (SeismogramHandler.cpp 456-516); getNumTracesGlobal is the number of rows of data, Seismogram.cpp 1003-1006. *)
Fixpoint first_used (h : handler) : option nat :=
  match h with
  | [] => None
  | s :: h => if Nat.ltb 0 (length (s_data s)) then Some 0%nat else option_map S (first_used h)
  end.
Fixpoint upd_at {A} (i : nat) (f : A -> A) (l : list A) : list A :=
  match l, i with
  | [], _ => []
  | x :: l, O => f x :: l
  | x :: l, S i => x :: upd_at i f l
  end.
Definition on_first (f : seis -> seis) (h : handler) : handler :=
  match first_used h with Some i => upd_at i f h | None => h end.
(** setShotInd, SeismogramHandler.cpp 455-464 (shotIndIncr is only used when reading). *)
Definition setShotInd (k : Z) (h : handler) : handler :=
  on_first (fun s => mkSeis (s_data s) (s_agc s) (s_cop s) (s_acop s) k) h.
(** assignCOP, SeismogramHandler.cpp 500-513. *)
Definition zero_of (m : mat) : mat := map (map (fun _ => 0%R)) m.
Definition assignCOP (h : handler) : handler :=
  on_first (fun s => mkSeis (s_cop s) (s_acop s) (zero_of (s_cop s)) (zero_of (s_acop s)) (s_ind s)) h.
(** resetSeismograms and allocate of the init functions (Sources.cpp 14-45, Receivers.cpp 15-33), then the recording of the
    shot: data and inverseAGC are the given matrices, the profiles are kept (Seismogram.cpp 935-941 does not clear them). *)
Fixpoint load (ds ags : list mat) (h : handler) : handler :=
  match ds, ags, h with
  | d :: ds, a :: ags, s :: h => mkSeis d a (s_cop s) (s_acop s) (s_ind s) :: load ds ags h
  | _, _, _ => h
  end.

Section Run.
(** getNumValues() > 0 of a dense matrix (library): at least one value different from zero, or at least one entry. *)
Variable has : mat -> bool.
(** Product of a trace with resampleMat (Seismogram.cpp 107, 112). *)
Variable resample : row -> row.
Variable seismic : bool.

(** Seismogram::write, Seismogram.cpp 82-148. *)
Definition write1 (fmt : Z) (name : string) (s : seis) : res (seis * list file) :=
  if has (s_data s) && Nat.eqb (length (s_data s)) 1 && Nat.ltb 1 (length (s_cop s)) then
    if negb (fmt =? 5) then
      r <- vget (s_data s) 0 ;; c <- vset (s_cop s) (s_ind s) r ;;
      Ok (mkSeis (s_data s) (s_agc s) c (s_acop s) (s_ind s), [])
    else
      r <- vget (s_agc s) 0 ;; c <- vset (s_acop s) (s_ind s) r ;;
      Ok (mkSeis (s_data s) (s_agc s) (s_cop s) c (s_ind s), [])
  else if has (s_data s) then
    if negb (fmt =? 5) then Ok (s, [(name, fmt, map resample (s_data s))])
    else Ok (s, [((name ++ ".inverseAGC")%string, 1, map resample (s_agc s))])
  else Ok (s, []).
(** SeismogramHandler::write, SeismogramHandler.cpp 16-22; the names of the types are appended in Seismogram::write. *)
Fixpoint write_all (fmt : Z) (name : string) (types : list string) (h : handler) : res (handler * list file) :=
  match types, h with
  | ty :: types, s :: h =>
      ' (s, f) <- write1 fmt (name ++ "." ++ ty)%string s ;;
      ' (h, fs) <- write_all fmt name types h ;; Ok (s :: h, (f ++ fs)%list)
  | _, _ => Ok (h, [])
  end.
Definition write_handler (fmt : Z) (name : string) (h : handler) : res (handler * list file) :=
  write_all fmt name (typeStrings seismic) h.

(** Seismogram::sumShotDomain, Seismogram.cpp 1046-1084, called by SeismogramHandler::sumShotDomain,
    SeismogramHandler.cpp 471-481, on all shot domains at once.  sumArray adds the arrays of all processes of the inter shot
    communicator and leaves the sum on each of them.  The call blocks (here [Fuel]) when only some of the domains reach it. *)
Fixpoint radd (a b : row) : row := match a, b with x :: a, y :: b => (x + y)%R :: radd a b | _, _ => [] end.
Fixpoint madd (a b : mat) : mat := match a, b with x :: a, y :: b => radd x y :: madd a b | _, _ => [] end.
Definition msum (ms : list mat) : mat := match ms with [] => [] | m :: ms => fold_left madd ms m end.
Definition get_cop (agc : bool) (s : seis) : mat := if agc then s_acop s else s_cop s.
Definition set_cop (agc : bool) (m : mat) (s : seis) : seis :=
  if agc then mkSeis (s_data s) (s_agc s) (s_cop s) m (s_ind s) else mkSeis (s_data s) (s_agc s) m (s_acop s) (s_ind s).
Definition own_cop (agc : bool) (h : handler) : option mat :=
  match first_used h with Some i => option_map (get_cop agc) (nth_error h i) | None => None end.
Fixpoint all_some {A} (l : list (option A)) : option (list A) :=
  match l with
  | [] => Some []
  | None :: _ => None
  | Some a :: l => option_map (cons a) (all_some l)
  end.
Definition sum_domains (agc : bool) (hs : list handler) : res (list handler) :=
  let cops := map (own_cop agc) hs in
  if forallb (fun o => match o with None => true | Some _ => false end) cops then Ok hs
  else match all_some cops with
       | None => Fuel
       | Some ms =>
           if forallb has ms then Ok (map (on_first (set_cop agc (msum ms))) hs)
           else if forallb (fun m => negb (has m)) ms then Ok hs
           else Fuel
       end.

(** The traces that a shot records in a round: before and after the normalisation, and the inverse gain control. *)
Variable raw rec agc : Z -> Z -> list mat.
(** normalizeTraces == 3, SeismogramFormat, the base file name, whether the round is the one with the Hilbert transformed
    source (randInd == 1 && decomposition != 0), the second argument of sumShotDomain. *)
Variable norm3 : bool.
Variable fmt : Z.
Variable base : string.
Variable hilbert : Z -> bool.
Variable sumAGC : bool.
(** uniqueShotNos *)
Variable nos : list Z.
Definition suffix (p : Z) : string := if hilbert p then ".Hilbert"%string else ""%string.

(** The shots of one domain in round [p]: Simulation.cpp 370-534 for the receivers (for the sources 383-386 and 411-417,
    with [norm3] = false); [inds] is uniqueShotInds. *)
Fixpoint shots (p : Z) (ks : list Z) (inds : list Z) (h : handler) : res (handler * list file) :=
  match ks with
  | [] => Ok (h, [])
  | i :: ks =>
      k <- vget inds i ;;
      no <- vget nos k ;;
      let h := setShotInd k (load (raw p k) (agc p k) h) in
      ' (h, f1) <- (if norm3 then write_handler 5 (base ++ ".shot_" ++ decStr no)%string h else Ok (h, [])) ;;
      let h := load (rec p k) (agc p k) h in
      ' (h, f2) <- write_handler fmt (base ++ ".shot_" ++ decStr no ++ suffix p)%string h ;;
      ' (h, fs) <- shots p ks inds h ;;
      Ok (h, (f1 ++ f2 ++ fs)%list)
  end.
(** All domains; [of_domain r] are the indices shotDist->lb() ... ub()-1 of domain [r]. *)
Fixpoint domains (p : Z) (of_domain : Z -> list Z) (inds : list Z) (r : Z) (hs : list handler)
  : res (list handler * list file) :=
  match hs with
  | [] => Ok ([], [])
  | h :: hs =>
      ' (h, f) <- shots p (of_domain r) inds h ;;
      ' (hs, fs) <- domains p of_domain inds (r + 1) hs ;;
      Ok (h :: hs, (f ++ fs)%list)
  end.
(** One round, Simulation.cpp 363-563; only the first domain writes the profile (550-562). *)
Definition pass (p : Z) (of_domain : Z -> list Z) (inds : list Z) (hs : list handler) : res (list handler * list file) :=
  ' (hs, fs) <- domains p of_domain inds 0 hs ;;
  hs <- sum_domains false hs ;;
  hs <- (if sumAGC then sum_domains true hs else Ok hs) ;;
  match hs with
  | [] => Ok ([], fs)
  | h0 :: hs =>
      ' (h0, f0) <- write_handler fmt (base ++ suffix p)%string (assignCOP h0) ;;
      Ok (h0 :: hs, (fs ++ f0)%list)
  end.
(** All rounds without random sources and source encoding (numRand = 2 with a decomposition, otherwise the loop is left
    after the first round, line 565): the shots of domain [r] are the block lb..ub-1 and uniqueShotInds is appended to in
    every round. *)
Fixpoint passes (rounds : nat) (p : Z) (inds : list Z) (dom : Z) (hs : list handler) : res (list handler * list (list file)) :=
  match rounds with
  | O => Ok (hs, [])
  | S rounds =>
      let n := Z.of_nat (length nos) in
      let inds := calcUniqueShotInds inds 0 n dom in
      ' (hs, f) <- pass p (fun r => zseq (block_lb n dom r) (Z.to_nat (block_ub n dom r - block_lb n dom r))) inds hs ;;
      ' (hs, fs) <- passes rounds (p + 1) inds dom hs ;;
      Ok (hs, f :: fs)
  end.
End Run.

(** The state before the first round: four seismograms per domain, profiles allocated. *)
Definition fresh_handler (n NT : nat) : handler := allocateCOP n NT (repeat (mkSeis [] [] [] [] 0) 4).
Definition collect has resample seismic raw rec agc norm3 fmt base sumAGC nos (decompose : bool) (NT : nat) (dom : Z)
  : res (list (list file)) :=
  ' (_, fs) <- passes has resample seismic raw rec agc norm3 fmt base (fun p => (p =? 1) && decompose) sumAGC nos
                 (if decompose then 2%nat else 1%nat) 0 [] dom (repeat (fresh_handler (length nos) NT) (Z.to_nat dom)) ;;
  Ok fs.
