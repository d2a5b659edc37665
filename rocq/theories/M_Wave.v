(** Wavefield objects: Wavefields.cpp, WavefieldsSeismic.cpp, WavefieldsEM.cpp and the fourteen classes.

    Simplifications: contexts and distributions are left out (one process owns all points); vectors are lists of floating-point values
    as in M_ModelEM.v; LAMA's elementwise operations throw if the sizes differ.  A wavefield object is a table from member names to
    vectors (members that were never allocated are empty), a table from names to lists of vectors for the memory variables
    (std::vector<DenseVector>), and numRelaxationMechanisms. *)
From Coq Require Import Reals String.
From Coq Require Import DecimalString.
From Verif Require Import Base M_Grid M_Average M_Common M_Model M_ModelEM.
Open Scope string_scope.
Open Scope Z_scope.

Record wave := mkW { wf : string -> vec; wr : string -> list vec; wn : Z }.
(** A default constructed object: Wavefields.hpp 155 sets the number of mechanisms to 0. *)
Definition wnew : wave := mkW (fun _ => []) (fun _ => []) 0.
Definition setF (w : wave) (f : string) (v : vec) : wave := mkW (fun g => if String.eqb g f then v else wf w g) (wr w) (wn w).
Definition setR (w : wave) (f : string) (l : list vec) : wave := mkW (wf w) (fun g => if String.eqb g f then l else wr w g) (wn w).
(** v[l] = x for a std::vector. *)
Definition putAt (v : list vec) (l : Z) (x : vec) : res (list vec) :=
  if (0 <=? l) && (l <? Z.of_nat (length v)) then Ok (firstn (Z.to_nat l) v ++ x :: skipn (S (Z.to_nat l)) v)%list else UB.

(** What the methods of a class touch: for each method the vectors and, inside a loop over the mechanisms, the memory variables, in the
    order of the statements; the number of vectors in the memory estimate; the getters that throw. *)
Record wclass := mkCls {
  dInit : list string; dInitR : list string; dReset : list string; dResetR : list string;
  dAssign : list string; dAssignR : list string; dMinus : list string; dMinusR : list string;
  dPlus : list string; dPlusR : list string; dTimesS : list string; dTimesSR : list string;
  dTimesV : list string; dTimesVR : list string; dTransform : list string; dTransformR : list string;
  dMulS : list string; dMulSR : list string; dMulW : list string; dMulWR : list string;
  dEstimate : Z -> Z; dMissing : list string }.
(** Getters that throw in all seismic (WavefieldsSeismic.cpp 268-435) and in all electromagnetic classes (WavefieldsEM.cpp 192-447). *)
Definition seismicMissing : list string := ["HX"; "HY"; "HZ"; "EX"; "EY"; "EZ"; "EXup"; "EYup"; "EZup"; "EXdown"; "EYdown"; "EZdown"; "EXleft"; "EYleft"; "EZleft"; "EXright"; "EYright"; "EZright"; "RX"; "RY"; "RZ"].
Definition emMissing : list string := ["VX"; "VY"; "VZ"; "Sxx"; "Syy"; "Szz"; "Syz"; "Sxz"; "Sxy"; "P"; "Pup"; "Pdown"; "Pleft"; "Pright"; "VXup"; "VXdown"; "VXleft"; "VXright"; "VYup"; "VYdown"; "VYleft"; "VYright"; "VZup"; "VZdown"; "VZleft"; "VZright"; "Rxx"; "Ryy"; "Rzz"; "Ryz"; "Rxz"; "Rxy"].
(** src/Wavefields/Wavefields2Dacoustic.cpp. *)
Definition w2Dacoustic : wclass := mkCls
  (* init, 7-24 *) ["VX"; "VY"; "P"; "Pup"; "Pdown"; "Pleft"; "Pright"; "VXup"; "VXdown"; "VXleft"; "VXright"; "VYup"; "VYdown"; "VYleft"; "VYright"] []
  (* resetWavefields, 255-260 *) ["VX"; "VY"; "P"] []
  (* assign, 470-487 *) ["VX"; "VY"; "P"; "Pup"; "Pdown"; "Pleft"; "Pright"; "VXup"; "VXdown"; "VXleft"; "VXright"; "VYup"; "VYdown"; "VYleft"; "VYright"] []
  (* minusAssign, 494-511 *) ["VX"; "VY"; "P"; "Pup"; "Pdown"; "Pleft"; "Pright"; "VXup"; "VXdown"; "VXleft"; "VXright"; "VYup"; "VYdown"; "VYleft"; "VYright"] []
  (* plusAssign, 518-535 *) ["VX"; "VY"; "P"; "Pup"; "Pdown"; "Pleft"; "Pright"; "VXup"; "VXdown"; "VXleft"; "VXright"; "VYup"; "VYdown"; "VYleft"; "VYright"] []
  (* timesAssign (scalar), 542-559 *) ["VX"; "VY"; "P"; "Pup"; "Pdown"; "Pleft"; "Pright"; "VXup"; "VXdown"; "VXleft"; "VXright"; "VYup"; "VYdown"; "VYleft"; "VYright"] []
  (* timesAssign (vector), 566-583 *) ["VX"; "VY"; "P"; "Pup"; "Pdown"; "Pleft"; "Pright"; "VXup"; "VXdown"; "VXleft"; "VXright"; "VYup"; "VYdown"; "VYleft"; "VYright"] []
  (* applyTransform, 590-607 *) ["VX"; "VY"; "P"; "Pup"; "Pdown"; "Pleft"; "Pright"; "VXup"; "VXdown"; "VXleft"; "VXright"; "VYup"; "VYdown"; "VYleft"; "VYright"] []
  (* operator* (scalar), 387-406 *) ["VX"; "VY"; "P"; "Pup"; "Pdown"; "Pleft"; "Pright"; "VXup"; "VXdown"; "VXleft"; "VXright"; "VYup"; "VYdown"; "VYleft"; "VYright"] []
  (* operator* (wavefield), 434-453 *) ["VX"; "VY"; "P"; "Pup"; "Pdown"; "Pleft"; "Pright"; "VXup"; "VXdown"; "VXleft"; "VXright"; "VYup"; "VYdown"; "VYleft"; "VYright"] []
  (* estimateMemory, 27-32 *) (fun L => 3)
  (* getters that throw *) (seismicMissing ++ ["VZ"; "Sxx"; "Syy"; "Szz"; "Syz"; "Sxz"; "Sxy"; "Rxx"; "Ryy"; "Rzz"; "Ryz"; "Rxz"; "Rxy"]).

(** src/Wavefields/Wavefields2Delastic.cpp. *)
Definition w2Delastic : wclass := mkCls
  (* init, 30-37 *) ["VX"; "VY"; "Sxx"; "Syy"; "Sxy"] []
  (* resetWavefields, 104-111 *) ["VX"; "VY"; "Sxx"; "Syy"; "Sxy"] []
  (* assign, 318-325 *) ["VX"; "VY"; "Sxx"; "Syy"; "Sxy"] []
  (* minusAssign, 332-339 *) ["VX"; "VY"; "Sxx"; "Syy"; "Sxy"] []
  (* plusAssign, 346-353 *) ["VX"; "VY"; "Sxx"; "Syy"; "Sxy"] []
  (* timesAssign (scalar), 360-367 *) ["VX"; "VY"; "Sxx"; "Syy"; "Sxy"] []
  (* timesAssign (vector), 374-381 *) ["VX"; "VY"; "Sxx"; "Syy"; "Sxy"] []
  (* applyTransform, 388-395 *) ["VX"; "VY"; "Sxx"; "Syy"; "Sxy"] []
  (* operator* (scalar), 255-264 *) ["VX"; "VY"; "Sxx"; "Syy"; "Sxy"] []
  (* operator* (wavefield), 292-301 *) ["VX"; "VY"; "Sxx"; "Syy"; "Sxy"] []
  (* estimateMemory, 40-45 *) (fun L => 5)
  (* getters that throw *) (seismicMissing ++ ["Sxz"; "Syz"; "Szz"; "VZ"; "P"; "Rxx"; "Ryy"; "Rzz"; "Ryz"; "Rxz"; "Rxy"]).

(** src/Wavefields/Wavefields2Dsh.cpp. *)
Definition w2Dsh : wclass := mkCls
  (* init, 30-35 *) ["VZ"; "Sxz"; "Syz"] []
  (* resetWavefields, 90-95 *) ["VZ"; "Sxz"; "Syz"] []
  (* assign, 280-285 *) ["VZ"; "Syz"; "Sxz"] []
  (* minusAssign, 292-297 *) ["VZ"; "Syz"; "Sxz"] []
  (* plusAssign, 304-309 *) ["VZ"; "Syz"; "Sxz"] []
  (* timesAssign (scalar), 316-321 *) ["VZ"; "Syz"; "Sxz"] []
  (* timesAssign (vector), 328-333 *) ["VZ"; "Syz"; "Sxz"] []
  (* applyTransform, 340-345 *) ["VZ"; "Sxz"; "Syz"] []
  (* operator* (scalar), 221-228 *) ["VZ"; "Sxz"; "Syz"] []
  (* operator* (wavefield), 256-263 *) ["VZ"; "Sxz"; "Syz"] []
  (* estimateMemory, 38-43 *) (fun L => 3)
  (* getters that throw *) (seismicMissing ++ ["Sxx"; "Syy"; "Szz"; "Sxy"; "VX"; "VY"; "P"; "Rxx"; "Ryy"; "Rzz"; "Ryz"; "Rxz"; "Rxy"]).

(** src/Wavefields/Wavefields2Dviscoelastic.cpp. *)
Definition w2Dviscoelastic : wclass := mkCls
  (* init, 30-49 *) ["VX"; "VY"; "Sxx"; "Syy"; "Sxy"] ["Rxx"; "Ryy"; "Rxy"]
  (* resetWavefields, 121-134 *) ["VX"; "VY"; "Sxx"; "Syy"; "Sxy"] ["Rxx"; "Ryy"; "Rxy"]
  (* assign, 331-341 *) ["VX"; "VY"; "Sxx"; "Syy"; "Sxy"] ["Rxx"; "Ryy"; "Rxy"]
  (* minusAssign, 348-360 *) ["VX"; "VY"; "Sxx"; "Syy"; "Sxy"] ["Rxx"; "Ryy"; "Rxy"]
  (* plusAssign, 367-379 *) ["VX"; "VY"; "Sxx"; "Syy"; "Sxy"] ["Rxx"; "Ryy"; "Rxy"]
  (* timesAssign (scalar), 386-398 *) ["VX"; "VY"; "Sxx"; "Syy"; "Sxy"] ["Rxx"; "Ryy"; "Rxy"]
  (* timesAssign (vector), 405-417 *) ["VX"; "VY"; "Sxx"; "Syy"; "Sxy"] ["Rxx"; "Ryy"; "Rxy"]
  (* applyTransform, 424-436 *) ["VX"; "VY"; "Sxx"; "Syy"; "Sxy"] ["Rxx"; "Ryy"; "Rxy"]
  (* operator* (scalar), 254-270 *) ["VX"; "VY"; "P"; "Sxx"; "Syy"; "Sxy"] ["Rxx"; "Ryy"; "Rxy"]
  (* operator* (wavefield), 298-314 *) ["VX"; "VY"; "P"; "Sxx"; "Syy"; "Sxy"] ["Rxx"; "Ryy"; "Rxy"]
  (* estimateMemory, 52-57 *) (fun L => 5 + 3 * L)
  (* getters that throw *) (seismicMissing ++ ["Rzz"; "Ryz"; "Rxz"; "Szz"; "Syz"; "Sxz"; "VZ"; "P"]).

(** src/Wavefields/Wavefields2Dviscosh.cpp. *)
Definition w2Dviscosh : wclass := mkCls
  (* init, 30-45 *) ["VZ"; "Sxz"; "Syz"] ["Rxz"; "Ryz"]
  (* resetWavefields, 104-114 *) ["VZ"; "Sxz"; "Syz"] ["Rxz"; "Ryz"]
  (* assign, 293-300 *) ["VZ"; "Syz"; "Sxz"] ["Rxz"; "Ryz"]
  (* minusAssign, 307-316 *) ["VZ"; "Syz"; "Sxz"] ["Rxz"; "Ryz"]
  (* plusAssign, 323-332 *) ["VZ"; "Syz"; "Sxz"] ["Rxz"; "Ryz"]
  (* timesAssign (scalar), 339-348 *) ["VZ"; "Syz"; "Sxz"] ["Rxz"; "Ryz"]
  (* timesAssign (vector), 355-364 *) ["VZ"; "Syz"; "Sxz"] ["Rxz"; "Ryz"]
  (* applyTransform, 371-380 *) ["VZ"; "Sxz"; "Syz"] ["Rxz"; "Ryz"]
  (* operator* (scalar), 224-236 *) ["VZ"; "Sxz"; "Syz"] ["Rxz"; "Ryz"]
  (* operator* (wavefield), 264-276 *) ["VZ"; "Sxz"; "Syz"] ["Rxz"; "Ryz"]
  (* estimateMemory, 48-53 *) (fun L => 3 + 2 * L)
  (* getters that throw *) (seismicMissing ++ ["Sxx"; "Syy"; "Szz"; "Sxy"; "VX"; "VY"; "P"; "Rxx"; "Ryy"; "Rzz"; "Rxy"]).

(** src/Wavefields/Wavefields3Dacoustic.cpp. *)
Definition w3Dacoustic : wclass := mkCls
  (* init, 30-36 *) ["VX"; "VY"; "VZ"; "P"] []
  (* resetWavefields, 92-98 *) ["VX"; "VY"; "VZ"; "P"] []
  (* assign, 278-284 *) ["VX"; "VY"; "VZ"; "P"] []
  (* minusAssign, 291-297 *) ["VX"; "VY"; "VZ"; "P"] []
  (* plusAssign, 304-310 *) ["VX"; "VY"; "VZ"; "P"] []
  (* timesAssign (scalar), 317-323 *) ["VX"; "VY"; "VZ"; "P"] []
  (* timesAssign (vector), 330-336 *) ["VX"; "VY"; "VZ"; "P"] []
  (* applyTransform, 343-349 *) ["VX"; "VY"; "VZ"; "P"] []
  (* operator* (scalar), 217-225 *) ["VX"; "VY"; "VZ"; "P"] []
  (* operator* (wavefield), 253-261 *) ["VX"; "VY"; "VZ"; "P"] []
  (* estimateMemory, 39-44 *) (fun L => 4)
  (* getters that throw *) (seismicMissing ++ ["Sxx"; "Syy"; "Szz"; "Syz"; "Sxz"; "Sxy"; "Rxx"; "Ryy"; "Rzz"; "Ryz"; "Rxz"; "Rxy"]).

(** src/Wavefields/Wavefields3Delastic.cpp. *)
Definition w3Delastic : wclass := mkCls
  (* init, 30-41 *) ["VX"; "VY"; "VZ"; "Sxx"; "Syy"; "Szz"; "Syz"; "Sxz"; "Sxy"] []
  (* resetWavefields, 111-122 *) ["VX"; "VY"; "VZ"; "Sxx"; "Syy"; "Szz"; "Syz"; "Sxz"; "Sxy"] []
  (* assign, 319-330 *) ["VX"; "VY"; "VZ"; "Sxx"; "Syy"; "Szz"; "Sxy"; "Sxz"; "Syz"] []
  (* minusAssign, 337-348 *) ["VX"; "VY"; "VZ"; "Sxx"; "Syy"; "Szz"; "Sxy"; "Sxz"; "Syz"] []
  (* plusAssign, 355-366 *) ["VX"; "VY"; "VZ"; "Sxx"; "Syy"; "Szz"; "Sxy"; "Sxz"; "Syz"] []
  (* timesAssign (scalar), 373-384 *) ["VX"; "VY"; "VZ"; "Sxx"; "Syy"; "Szz"; "Sxy"; "Sxz"; "Syz"] []
  (* timesAssign (vector), 391-402 *) ["VX"; "VY"; "VZ"; "Sxx"; "Syy"; "Szz"; "Sxy"; "Sxz"; "Syz"] []
  (* applyTransform, 409-420 *) ["VX"; "VY"; "VZ"; "Sxx"; "Syy"; "Szz"; "Sxy"; "Sxz"; "Syz"] []
  (* operator* (scalar), 246-260 *) ["VX"; "VY"; "VZ"; "P"; "Sxx"; "Syy"; "Szz"; "Sxy"; "Sxz"; "Syz"] []
  (* operator* (wavefield), 288-302 *) ["VX"; "VY"; "VZ"; "P"; "Sxx"; "Syy"; "Szz"; "Sxy"; "Sxz"; "Syz"] []
  (* estimateMemory, 44-49 *) (fun L => 9)
  (* getters that throw *) (seismicMissing ++ ["P"; "Rxx"; "Ryy"; "Rzz"; "Ryz"; "Rxz"; "Rxy"]).

(** src/Wavefields/Wavefields3Dviscoelastic.cpp. *)
Definition w3Dviscoelastic : wclass := mkCls
  (* init, 30-59 *) ["VX"; "VY"; "VZ"; "Sxx"; "Syy"; "Szz"; "Syz"; "Sxz"; "Sxy"] ["Rxx"; "Ryy"; "Rzz"; "Ryz"; "Rxz"; "Rxy"]
  (* resetWavefields, 137-156 *) ["VX"; "VY"; "VZ"; "Sxx"; "Syy"; "Szz"; "Syz"; "Sxz"; "Sxy"] ["Rxx"; "Ryy"; "Rzz"; "Ryz"; "Rxz"; "Rxy"]
  (* assign, 305-322 *) ["VX"; "VY"; "VZ"; "Sxx"; "Syy"; "Szz"; "Sxy"; "Sxz"; "Syz"] ["Rxx"; "Ryy"; "Rzz"; "Rxy"; "Rxz"; "Ryz"]
  (* minusAssign, 329-348 *) ["VX"; "VY"; "VZ"; "Sxx"; "Syy"; "Szz"; "Sxy"; "Sxz"; "Syz"] ["Rxx"; "Ryy"; "Rzz"; "Rxy"; "Rxz"; "Ryz"]
  (* plusAssign, 355-374 *) ["VX"; "VY"; "VZ"; "Sxx"; "Syy"; "Szz"; "Sxy"; "Sxz"; "Syz"] ["Rxx"; "Ryy"; "Rzz"; "Rxy"; "Rxz"; "Ryz"]
  (* timesAssign (scalar), 381-400 *) ["VX"; "VY"; "VZ"; "Sxx"; "Syy"; "Szz"; "Sxy"; "Sxz"; "Syz"] ["Rxx"; "Ryy"; "Rzz"; "Rxy"; "Rxz"; "Ryz"]
  (* timesAssign (vector), 407-426 *) ["VX"; "VY"; "VZ"; "Sxx"; "Syy"; "Szz"; "Sxy"; "Sxz"; "Syz"] ["Rxx"; "Ryy"; "Rzz"; "Rxy"; "Rxz"; "Ryz"]
  (* applyTransform, 433-452 *) ["VX"; "VY"; "VZ"; "Sxx"; "Syy"; "Szz"; "Sxy"; "Sxz"; "Syz"] ["Rxx"; "Ryy"; "Rzz"; "Rxy"; "Rxz"; "Ryz"]
  (* operator* (scalar), 232-246 *) ["VX"; "VY"; "VZ"; "P"; "Sxx"; "Syy"; "Szz"; "Sxy"; "Sxz"; "Syz"] []
  (* operator* (wavefield), 274-288 *) ["VX"; "VY"; "VZ"; "P"; "Sxx"; "Syy"; "Szz"; "Sxy"; "Sxz"; "Syz"] []
  (* estimateMemory, 62-67 *) (fun L => 9 + 6 * L)
  (* getters that throw *) (seismicMissing ++ ["P"]).

(** src/WavefieldsEM/Wavefields2Demem.cpp. *)
Definition w2Demem : wclass := mkCls
  (* init, 30-35 *) ["HZ"; "EY"; "EX"] []
  (* resetWavefields, 87-92 *) ["HZ"; "EX"; "EY"] []
  (* assign, 221-226 *) ["HZ"; "EX"; "EY"] []
  (* minusAssign, 233-238 *) ["HZ"; "EX"; "EY"] []
  (* plusAssign, 245-250 *) ["HZ"; "EX"; "EY"] []
  (* timesAssign (scalar), 257-262 *) ["HZ"; "EX"; "EY"] []
  (* timesAssign (vector), 269-274 *) ["HZ"; "EX"; "EY"] []
  (* applyTransform, 281-286 *) ["HZ"; "EX"; "EY"] []
  (* operator* (scalar), 162-169 *) ["HZ"; "EX"; "EY"] []
  (* operator* (wavefield), 197-204 *) ["HZ"; "EX"; "EY"] []
  (* estimateMemory, 38-43 *) (fun L => 3)
  (* getters that throw *) (emMissing ++ ["HX"; "HY"; "EZ"; "RX"; "RY"; "RZ"]).

(** src/WavefieldsEM/Wavefields2Dtmem.cpp. *)
Definition w2Dtmem : wclass := mkCls
  (* init, 30-39 *) ["HX"; "HY"; "EZ"; "EZup"; "EZdown"; "EZleft"; "EZright"] []
  (* resetWavefields, 166-171 *) ["HX"; "HY"; "EZ"] []
  (* assign, 342-351 *) ["HX"; "HY"; "EZ"; "EZup"; "EZdown"; "EZleft"; "EZright"] []
  (* minusAssign, 358-367 *) ["HX"; "HY"; "EZ"; "EZup"; "EZdown"; "EZleft"; "EZright"] []
  (* plusAssign, 374-383 *) ["HX"; "HY"; "EZ"; "EZup"; "EZdown"; "EZleft"; "EZright"] []
  (* timesAssign (scalar), 390-399 *) ["HX"; "HY"; "EZ"; "EZup"; "EZdown"; "EZleft"; "EZright"] []
  (* timesAssign (vector), 406-415 *) ["HX"; "HY"; "EZ"; "EZup"; "EZdown"; "EZleft"; "EZright"] []
  (* applyTransform, 422-431 *) ["HX"; "HY"; "EZ"; "EZup"; "EZdown"; "EZleft"; "EZright"] []
  (* operator* (scalar), 275-286 *) ["HX"; "HY"; "EZ"; "EZup"; "EZdown"; "EZleft"; "EZright"] []
  (* operator* (wavefield), 314-325 *) ["HX"; "HY"; "EZ"; "EZup"; "EZdown"; "EZleft"; "EZright"] []
  (* estimateMemory, 42-47 *) (fun L => 3)
  (* getters that throw *) (emMissing ++ ["HZ"; "EX"; "EY"; "RX"; "RY"; "RZ"]).

(** src/WavefieldsEM/Wavefields2Dviscoemem.cpp. *)
Definition w2Dviscoemem : wclass := mkCls
  (* init, 30-45 *) ["HZ"; "EX"; "EY"] ["RX"; "RY"]
  (* resetWavefields, 101-111 *) ["HZ"; "EX"; "EY"] ["RX"; "RY"]
  (* assign, 234-241 *) ["HZ"; "EX"; "EY"] ["RX"; "RY"]
  (* minusAssign, 248-257 *) ["HZ"; "EX"; "EY"] ["RX"; "RY"]
  (* plusAssign, 264-273 *) ["HZ"; "EX"; "EY"] ["RX"; "RY"]
  (* timesAssign (scalar), 280-289 *) ["HZ"; "EX"; "EY"] ["RX"; "RY"]
  (* timesAssign (vector), 296-305 *) ["HZ"; "EX"; "EY"] ["RX"; "RY"]
  (* applyTransform, 312-321 *) ["HZ"; "EX"; "EY"] ["RX"; "RY"]
  (* operator* (scalar), 165-177 *) ["HZ"; "EX"; "EY"] ["RX"; "RY"]
  (* operator* (wavefield), 205-217 *) ["HZ"; "EX"; "EY"] ["RX"; "RY"]
  (* estimateMemory, 48-53 *) (fun L => 3 + 2 * L)
  (* getters that throw *) (emMissing ++ ["HX"; "HY"; "EZ"; "RZ"]).

(** src/WavefieldsEM/Wavefields2Dviscotmem.cpp. *)
Definition w2Dviscotmem : wclass := mkCls
  (* init, 30-43 *) ["HX"; "HY"; "EZ"] ["RZ"]
  (* resetWavefields, 108-117 *) ["HX"; "HY"; "EZ"] ["RZ"]
  (* assign, 280-286 *) ["HX"; "HY"; "EZ"] ["RZ"]
  (* minusAssign, 293-301 *) ["HX"; "HY"; "EZ"] ["RZ"]
  (* plusAssign, 308-316 *) ["HX"; "HY"; "EZ"] ["RZ"]
  (* timesAssign (scalar), 323-331 *) ["HX"; "HY"; "EZ"] ["RZ"]
  (* timesAssign (vector), 338-346 *) ["HX"; "HY"; "EZ"] ["RZ"]
  (* applyTransform, 353-361 *) ["HX"; "HY"; "EZ"] ["RZ"]
  (* operator* (scalar), 213-224 *) ["HX"; "HY"; "EZ"] ["RZ"]
  (* operator* (wavefield), 252-263 *) ["HX"; "HY"; "EZ"] ["RZ"]
  (* estimateMemory, 46-51 *) (fun L => 3 + 1 * L)
  (* getters that throw *) (emMissing ++ ["HZ"; "EX"; "EY"; "RX"; "RY"]).

(** src/WavefieldsEM/Wavefields3Demem.cpp. *)
Definition w3Demem : wclass := mkCls
  (* init, 30-38 *) ["HX"; "HY"; "HZ"; "EX"; "EY"; "EZ"] []
  (* resetWavefields, 101-109 *) ["HX"; "HY"; "HZ"; "EX"; "EY"; "EZ"] []
  (* assign, 266-274 *) ["HX"; "HY"; "HZ"; "EX"; "EY"; "EZ"] []
  (* minusAssign, 281-289 *) ["HX"; "HY"; "HZ"; "EX"; "EY"; "EZ"] []
  (* plusAssign, 296-304 *) ["HX"; "HY"; "HZ"; "EX"; "EY"; "EZ"] []
  (* timesAssign (scalar), 311-319 *) ["HX"; "HY"; "HZ"; "EX"; "EY"; "EZ"] []
  (* timesAssign (vector), 326-334 *) ["HX"; "HY"; "HZ"; "EX"; "EY"; "EZ"] []
  (* applyTransform, 341-349 *) ["HX"; "HY"; "HZ"; "EX"; "EY"; "EZ"] []
  (* operator* (scalar), 201-211 *) ["HX"; "HY"; "HZ"; "EX"; "EY"; "EZ"] []
  (* operator* (wavefield), 239-249 *) ["HX"; "HY"; "HZ"; "EX"; "EY"; "EZ"] []
  (* estimateMemory, 41-46 *) (fun L => 6)
  (* getters that throw *) (emMissing ++ ["RX"; "RY"; "RZ"]).

(** src/WavefieldsEM/Wavefields3Dviscoemem.cpp. *)
Definition w3Dviscoemem : wclass := mkCls
  (* init, 30-50 *) ["HX"; "HY"; "HZ"; "EX"; "EY"; "EZ"] ["RX"; "RY"; "RZ"]
  (* resetWavefields, 119-133 *) ["HX"; "HY"; "HZ"; "EX"; "EY"; "EZ"] ["RX"; "RY"; "RZ"]
  (* assign, 278-289 *) ["HX"; "HY"; "HZ"; "EX"; "EY"; "EZ"] ["RX"; "RY"; "RZ"]
  (* minusAssign, 296-309 *) ["HX"; "HY"; "HZ"; "EX"; "EY"; "EZ"] ["RX"; "RY"; "RZ"]
  (* plusAssign, 316-329 *) ["HX"; "HY"; "HZ"; "EX"; "EY"; "EZ"] ["RX"; "RY"; "RZ"]
  (* timesAssign (scalar), 336-349 *) ["HX"; "HY"; "HZ"; "EX"; "EY"; "EZ"] ["RX"; "RY"; "RZ"]
  (* timesAssign (vector), 356-369 *) ["HX"; "HY"; "HZ"; "EX"; "EY"; "EZ"] ["RX"; "RY"; "RZ"]
  (* applyTransform, 376-389 *) ["HX"; "HY"; "HZ"; "EX"; "EY"; "EZ"] ["RX"; "RY"; "RZ"]
  (* operator* (scalar), 201-217 *) ["HX"; "HY"; "HZ"; "EX"; "EY"; "EZ"] ["RX"; "RY"; "RZ"]
  (* operator* (wavefield), 245-261 *) ["HX"; "HY"; "HZ"; "EX"; "EY"; "EZ"] ["RX"; "RY"; "RZ"]
  (* estimateMemory, 53-58 *) (fun L => 6 + 3 * L)
  (* getters that throw *) (emMissing ++ []).

Inductive wkind := W2Dacoustic | W2Delastic | W2Dsh | W2Dviscoelastic | W2Dviscosh | W3Dacoustic | W3Delastic | W3Dviscoelastic
  | W2Demem | W2Dtmem | W2Dviscoemem | W2Dviscotmem | W3Demem | W3Dviscoemem.
Definition cls (k : wkind) : wclass :=
  match k with
  | W2Dacoustic => w2Dacoustic | W2Delastic => w2Delastic | W2Dsh => w2Dsh | W2Dviscoelastic => w2Dviscoelastic | W2Dviscosh => w2Dviscosh
  | W3Dacoustic => w3Dacoustic | W3Delastic => w3Delastic | W3Dviscoelastic => w3Dviscoelastic
  | W2Demem => w2Demem | W2Dtmem => w2Dtmem | W2Dviscoemem => w2Dviscoemem | W2Dviscotmem => w2Dviscotmem
  | W3Demem => w3Demem | W3Dviscoemem => w3Dviscoemem
  end.

(** Getters getRefXX of an object of class [k]. *)
Definition ref (k : wkind) (w : wave) (f : string) : res vec := if existsb (String.eqb f) (dMissing (cls k)) then Throw else Ok (wf w f).
Definition refR (k : wkind) (w : wave) (f : string) : res (list vec) := if existsb (String.eqb f) (dMissing (cls k)) then Throw else Ok (wr w f).

(** Statements one after the other. *)
Fixpoint each {A} (f : wave -> A -> res wave) (l : list A) (w : wave) : res wave :=
  match l with [] => Ok w | x :: l => w <- f w x ;; each f l w end.
(** [f op= ...] for a vector, and for the l-th memory variable in a loop over the mechanisms of this object. *)
Definition onF (g : string -> vec -> res vec) (w : wave) (f : string) : res wave := v <- g f (wf w f) ;; Ok (setF w f v).
Definition onR (g : string -> Z -> vec -> res vec) (l : Z) (w : wave) (f : string) : res wave :=
  x <- vget (wr w f) l ;; y <- g f l x ;; r <- putAt (wr w f) l y ;; Ok (setR w f r).
Definition both (fs rs : list string) (g : string -> vec -> res vec) (h : string -> Z -> vec -> res vec) (w : wave) : res wave :=
  w <- each (onF g) fs w ;; each (fun w l => each (onR h l) rs w) (zseq 0 (Z.to_nat (wn w))) w.

(** init with [n] grid points and [L] mechanisms; initWavefield, resetWavefield: Wavefields.cpp 10-30. *)
Definition zeros (n : nat) : vec := repeat (Num 0) n.
Definition winit (k : wkind) (n : nat) (L : Z) (w : wave) : wave :=
  let w := fold_left (fun w f => setF w f (zeros n)) (dInit (cls k)) w in
  match dInitR (cls k) with
  | [] => w
  | rs => fold_left (fun w f => setR w f (repeat (zeros n) (Z.to_nat L))) rs (mkW (wf w) (wr w) L)
  end.
Definition wzero (v : vec) : vec := map (fun _ => Num 0) v.
Definition wreset (k : wkind) (w : wave) : res wave := both (dReset (cls k)) (dResetR (cls k)) (fun _ v => Ok (wzero v)) (fun _ _ v => Ok (wzero v)) w.
(** operator=, operator-=, operator+= of the base class (Wavefields.cpp 53-81) with an object [v] of class [k']. *)
Definition wassign (k k' : wkind) (w v : wave) : res wave :=
  w <- each (onF (fun f _ => ref k' v f)) (dAssign (cls k)) w ;; each (fun w f => l <- refR k' v f ;; Ok (setR w f l)) (dAssignR (cls k)) w.
Definition wcombine (op : fpv -> fpv -> fpv) (fs rs : list string) (k' : wkind) (w v : wave) : res wave :=
  both fs rs (fun f x => y <- ref k' v f ;; zipR op x y) (fun f l x => ys <- refR k' v f ;; y <- vget ys l ;; zipR op x y) w.
Definition wminus (k k' : wkind) (w v : wave) : res wave := wcombine fsub (dMinus (cls k)) (dMinusR (cls k)) k' w v.
Definition wplus (k k' : wkind) (w v : wave) : res wave := wcombine fadd (dPlus (cls k)) (dPlusR (cls k)) k' w v.
(** operator*= of the base class, 83-101. *)
Definition wtimes (k : wkind) (c : R) (w : wave) : res wave :=
  both (dTimesS (cls k)) (dTimesSR (cls k)) (fun _ x => Ok (timesBy c x)) (fun _ _ x => Ok (timesBy c x)) w.
Definition wtimesV (k : wkind) (c : vec) (w : wave) : res wave :=
  both (dTimesV (cls k)) (dTimesVR (cls k)) (fun _ x => zipR fmul x c) (fun _ _ x => zipR fmul x c) w.
(** applyTransform. *)
Definition wtransform (k k' : wkind) (m : matrix) (w v : wave) : res wave :=
  both (dTransform (cls k)) (dTransformR (cls k)) (fun f _ => x <- ref k' v f ;; fmatvec m x) (fun f l _ => xs <- refR k' v f ;; x <- vget xs l ;; fmatvec m x) w.
(** operator* of the classes: the result is a new object, so its lists of memory variables are empty. *)
Definition mulR (rs : list string) (w : wave) (g : string -> Z -> vec -> res vec) (r : wave) : res wave :=
  each (fun r l => each (fun r f => x <- vget (wr w f) l ;; y <- g f l x ;; z <- putAt (wr r f) l y ;; Ok (setR r f z)) rs r) (zseq 0 (Z.to_nat (wn w))) r.
Definition wmul (k : wkind) (w : wave) (c : R) : res wave :=
  r <- each (fun r f => Ok (setF r f (timesBy c (wf w f)))) (dMulS (cls k)) wnew ;; mulR (dMulSR (cls k)) w (fun _ _ x => Ok (timesBy c x)) r.
Definition wmulW (k : wkind) (w v : wave) : res wave :=
  r <- each (fun r f => x <- zipR fmul (wf w f) (wf v f) ;; Ok (setF r f x)) (dMulW (cls k)) wnew ;;
  mulR (dMulWR (cls k)) w (fun f l x => y <- vget (wr v f) l ;; zipR fmul x y) r.
(** operator*= of the classes (e.g. Wavefields2Dacoustic.cpp 423-426, 460-463), which hides the one of the base class when the static
    type is the class itself: returns [rhs * *this] and leaves the object alone.  Result: the object afterwards and the returned value. *)
Definition wmulAssign (k : wkind) (w : wave) (c : R) : res (wave * wave) := r <- wmul k w c ;; Ok (w, r).

(** estimateMemory in MB for [n] points and [b] bytes per value: Wavefields.cpp 32-47. *)
Definition westimate (k : wkind) (n b L : Z) : R := (IZR (n * b) / 1024 / 1024 * IZR (dEstimate (cls k) L))%R.

(** isFinite: WavefieldsSeismic.cpp 12-39 (only the value in the middle of VX and VZ), WavefieldsEM.cpp 12-41 (all values of EX and EZ);
    [n] owned points.  Reading beyond the end of a vector is undefined. *)
Definition isFin (x : fpv) : bool := match x with Num _ => true | _ => false end.
Definition isSeismicW (k : wkind) : bool :=
  match k with W2Demem | W2Dtmem | W2Dviscoemem | W2Dviscotmem | W3Demem | W3Dviscoemem => false | _ => true end.
Definition checkAt (v : vec) (i : Z) : res bool := match v with [] => Ok true | _ => x <- vget v i ;; Ok (isFin x) end.
Fixpoint checkAll (v u : vec) (is : list Z) : res bool :=
  match is with [] => Ok true | i :: is => a <- checkAt v i ;; b <- checkAt u i ;; c <- checkAll v u is ;; Ok (a && b && c) end.
Definition wIsFinite (k : wkind) (n : Z) (w : wave) : res bool :=
  if isSeismicW k then a <- checkAt (wf w "VX") (n / 2) ;; b <- checkAt (wf w "VZ") (n / 2) ;; Ok (a && b)
  else checkAll (wf w "EX") (wf w "EZ") (zseq 0 (Z.to_nat n)).

(** ** decompose: Wavefields2Dacoustic.cpp 119-250, Wavefields2Dtmem.cpp 109-161; empty in the other classes *)
(** UnaryOp::SIGN; the sign of not-a-number is a parameter, because it depends on LAMA. *)
Definition fsign (sn x : fpv) : fpv :=
  match x with
  | Num r => Num (if Rlt_dec 0 r then 1 else if Rlt_dec r 0 then -1 else 0)%R
  | PInf => Num 1 | MInf => Num (-1) | NaN => sn
  end.
Definition fabs (x : fpv) : fpv := match x with Num r => Num (Rabs r) | PInf | MInf => PInf | NaN => NaN end.
(** maxNorm; comparisons with not-a-number are false. *)
Definition fmaxnorm (v : vec) : fpv := fold_left (fun m x => if flt m (fabs x) then fabs x else m) v (Num 0).
(** Poynting2 for one field: (D f) df/dt * (-1), scaled to the maximum norm of Poynting1, plus Poynting1 (e.g. 2Dacoustic 133-139). *)
Definition poynting (d : matrix) (p1 f df : vec) : res vec :=
  p2 <- fmatvec d f ;; p2 <- zipR fmul p2 df ;; let p2 := timesBy (-1) p2 in
  let q := fquot (fmaxnorm p1) (fmaxnorm p2) in
  zipR fadd (map (fun x => fmul x q) p2) p1.
(** The two parts (e.g. 141-150). *)
Definition lowerPart (sn : fpv) (p2 f : vec) : res vec := zipR fmul (map (fun x => fsign sn (fabs (fsub (fsign sn x) (Num 1)))) p2) f.
Definition upperPart (sn : fpv) (p2 f : vec) : res vec := zipR fmul (map (fun x => fsign sn (fadd (fsign sn x) (Num 1))) p2) f.
Definition splitField (sn : fpv) (d : matrix) (p1 : vec) (k' : wkind) (der : wave) (lo up : string) (w : wave) (f : string) : res wave :=
  df <- ref k' der f ;; p2 <- poynting d p1 (wf w f) df ;;
  a <- lowerPart sn p2 (wf w f) ;; let w := setF w (f ++ lo) a in
  b <- upperPart sn p2 (wf w f) ;; Ok (setF w (f ++ up) b).
Definition wdecompose (sn : fpv) (k k' : wkind) (dec : Z) (der : wave) (dxf dyf : matrix) (w : wave) : res wave :=
  match k with
  | W2Dacoustic =>
    if dec =? 1 then p1 <- zipR fmul (map fneg (wf w "P")) (wf w "VY") ;; each (splitField sn dyf p1 k' der "up" "down") ["P"; "VX"; "VY"] w
    else if dec =? 2 then p1 <- zipR fmul (map fneg (wf w "P")) (wf w "VX") ;; each (splitField sn dxf p1 k' der "left" "right") ["P"; "VX"; "VY"] w
    else Ok w
  | W2Dtmem =>
    if dec =? 1 then p1 <- zipR fmul (wf w "EZ") (wf w "HX") ;; each (splitField sn dyf p1 k' der "up" "down") ["EZ"] w
    else if dec =? 2 then p1 <- zipR fmul (wf w "EZ") (wf w "HY") ;; each (splitField sn dxf (timesBy (-1) p1) k' der "left" "right") ["EZ"] w
    else Ok w
  | _ => Ok w
  end.

(** The time derivative in the time loop: Simulation.cpp 450, 458-459 (486, 494-495); [old], [new] the wavefields before and after the
    time step, [tmp] the auxiliary object, which is created but never initialised (327). *)
Definition timeDerivative (k : wkind) (dt : R) (old new tmp : wave) : res wave :=
  t <- wassign k k tmp old ;; t <- wminus k k t new ;; wtimes k (- (1 / dt)) t.

(** getCompensation: Modelparameter.cpp 127-142. *)
Definition fexp (x : fpv) : fpv := match x with Num r => Num (exp r) | PInf => PInf | MInf => Num 0 | NaN => NaN end.
Definition getCompensation (seismic : bool) (p : eparams) (dt : R) (tStep : Z) : res vec :=
  if seismic then Throw else c <- zipR fquot (sigma p) (eps p) ;; Ok (map fexp (timesBy (IZR tStep * dt) c)).

(** calcTransformMatrixXYZ: Wavefields.cpp 108-133. *)
Definition transformXZY (g : grid) : res matrix :=
  fill (nGridpoints g) (nGridpoints g) (fun i => c <- index2coordinate g i ;; Ok [(cy c + cx c * gNY g + cz c * gNX g * gNY g, 1%R)]).
(** assignTranspose: row c collects the entries (i, v) with (c, v) in row i. *)
Definition transpose (m : matrix) (n : Z) : matrix :=
  mkMat n (map (fun c => flat_map (fun ir => map (fun e => (fst ir, snd e)) (filter (fun e => fst e =? c) (snd ir)))
    (combine (zseq 0 (length (mrows m))) (mrows m))) (zseq 0 (Z.to_nat (mcols m)))).

(** ** Snapshots: write *)
Record derivs := mkD { Dxf : matrix; Dyf : matrix; Dzf : matrix; Dxb : matrix; Dyb : matrix; Dzb : matrix }.
(** The model vectors that the classes ask for: getSWaveModulus, getPWaveModulus, getDielectricPermittivity, getVelocityEM,
    getElectricConductivity. *)
Record snapmodel := mkSM { smS : vec; smP : vec; smEps : vec; smVel : vec; smSigma : vec }.
(** std::to_string of an integer. *)
Definition decStr (z : Z) : string := NilZero.string_of_int (Z.to_int z).
(** getCurl, getDiv in 2D (e.g. Wavefields2Delastic.cpp 206-244) and 3D (Wavefields3Delastic.cpp 197-240); [a b c] the names of the
    components, [m] the model vector. *)
Definition curl2 (d : derivs) (m x y : vec) : res vec :=
  c <- fmatvec (Dyf d) x ;; u <- fmatvec (Dxf d) y ;; c <- zipR fsub c u ;; zipR fmul c (map fsqrt m).
Definition div2 (d : derivs) (m x y : vec) : res vec :=
  c <- fmatvec (Dxb d) x ;; u <- fmatvec (Dyb d) y ;; c <- zipR fadd c u ;; zipR fmul c (map fsqrt m).
Definition squared (v : vec) : vec := map (fun x => fpow x 2) v.
Definition curl3 (d : derivs) (m x y z : vec) : res vec :=
  a <- fmatvec (Dyf d) z ;; b <- fmatvec (Dzf d) y ;; u1 <- zipR fsub a b ;;
  a <- fmatvec (Dzf d) x ;; b <- fmatvec (Dxf d) z ;; u2 <- zipR fsub a b ;;
  a <- fmatvec (Dxf d) y ;; b <- fmatvec (Dyf d) x ;; u3 <- zipR fsub a b ;;
  c <- zipR fadd (squared u1) (squared u2) ;; c <- zipR fadd c (squared u3) ;; c <- zipR fmul c m ;; Ok (map fsqrt c).
Definition div3 (d : derivs) (m x y z : vec) : res vec :=
  a <- fmatvec (Dxb d) x ;; b <- fmatvec (Dyb d) y ;; c <- zipR fadd a b ;; b <- fmatvec (Dzb d) z ;; c <- zipR fadd c b ;;
  c <- zipR fmul (squared c) m ;; Ok (map fsqrt c).
(** The files of a call of write: component label and contents.  [simple fs rs]: the fields [fs] under their own names and for every
    mechanism l the memory variables [rs] under their name followed by l+1. *)
Definition simple (fs rs : list string) (w : wave) : res (list (string * vec)) :=
  m <- mapres (fun l => mapres (fun f => x <- vget (wr w f) l ;; Ok (f ++ decStr (l + 1), x)) rs) (zseq 0 (Z.to_nat (wn w))) ;;
  Ok ((map (fun f => (f, wf w f)) fs ++ concat m)%list).
Definition named (l : list (string * string)) (w : wave) : list (string * vec) := map (fun p => (fst p, wf w (snd p))) l.
Definition pair2 (a b : string) (c d : res vec) : res (list (string * vec)) := x <- c ;; y <- d ;; Ok [(a, x); (b, y)].
Definition wwrite (k : wkind) (snapType : Z) (d : derivs) (m : snapmodel) (w : wave) : res (list (string * vec)) :=
  let v := wf w in
  match k with
  | W2Dacoustic => (* Wavefields2Dacoustic.cpp 68-111 *)
    if snapType =? 0 then Ok [] else if snapType =? 1 then simple ["VX"; "VY"] [] w else if snapType =? 2 then simple ["P"] [] w
    else if snapType =? 3 then Throw
    else if snapType =? 4 then Ok (named [("P", "P"); ("VX", "VX"); ("VY", "VY"); ("P.up", "Pup"); ("P.down", "Pdown"); ("VX.up", "VXup"); ("VX.down", "VXdown"); ("VY.up", "VYup"); ("VY.down", "VYdown")] w)
    else if snapType =? 5 then Ok (named [("P", "P"); ("VX", "VX"); ("VY", "VY"); ("P.left", "Pleft"); ("P.right", "Pright"); ("VX.left", "VXleft"); ("VX.right", "VXright"); ("VY.left", "VYleft"); ("VY.right", "VYright")] w)
    else Throw
  | W2Delastic => (* Wavefields2Delastic.cpp 58-89 *)
    if snapType =? 1 then simple ["VX"; "VY"] [] w else if snapType =? 2 then simple ["Sxx"; "Syy"; "Sxy"] [] w
    else if snapType =? 3 then pair2 "curl" "div" (curl2 d (smS m) (v "VX") (v "VY")) (div2 d (smP m) (v "VX") (v "VY")) else Throw
  | W2Dsh => (* Wavefields2Dsh.cpp 56-75 *)
    if snapType =? 1 then simple ["VZ"] [] w else if snapType =? 2 then simple ["Sxz"; "Syz"] [] w else Throw
  | W2Dviscoelastic => (* Wavefields2Dviscoelastic.cpp 70-106 *)
    if snapType =? 1 then simple ["VX"; "VY"] [] w else if snapType =? 2 then simple ["Sxx"; "Syy"; "Sxy"] ["Rxx"; "Ryy"; "Rxy"] w
    else if snapType =? 3 then pair2 "CURL" "DIV" (curl2 d (smS m) (v "VX") (v "VY")) (div2 d (smP m) (v "VX") (v "VY")) else Throw
  | W2Dviscosh => (* Wavefields2Dviscosh.cpp 66-89 *)
    if snapType =? 1 then simple ["VZ"] [] w else if snapType =? 2 then simple ["Sxz"; "Syz"] ["Rxz"; "Ryz"] w else Throw
  | W3Dacoustic => (* Wavefields3Dacoustic.cpp 57-77 *)
    if snapType =? 1 then simple ["VX"; "VY"; "VZ"] [] w else if snapType =? 2 then simple ["P"] [] w else Throw
  | W3Delastic => (* Wavefields3Delastic.cpp 62-96 *)
    if snapType =? 1 then simple ["VX"; "VY"; "VZ"] [] w else if snapType =? 2 then simple ["Sxx"; "Syy"; "Szz"; "Sxy"; "Sxz"; "Syz"] [] w
    else if snapType =? 3 then pair2 "CURL" "DIV" (curl3 d (smS m) (v "VX") (v "VY") (v "VZ")) (div3 d (smP m) (v "VX") (v "VY") (v "VZ")) else Throw
  | W3Dviscoelastic => (* Wavefields3Dviscoelastic.cpp 80-122 *)
    if snapType =? 1 then simple ["VX"; "VY"; "VZ"] [] w
    else if snapType =? 2 then simple ["Sxx"; "Syy"; "Szz"; "Sxy"; "Sxz"; "Syz"] ["Rxx"; "Ryy"; "Rzz"; "Rxy"; "Rxz"; "Ryz"] w
    else if snapType =? 3 then pair2 "CURL" "DIV" (curl3 d (smS m) (v "VX") (v "VY") (v "VZ")) (div3 d (smP m) (v "VX") (v "VY") (v "VZ")) else Throw
  | W2Demem => (* Wavefields2Demem.cpp 56-75 *)
    if snapType =? 1 then simple ["HZ"] [] w else if snapType =? 2 then simple ["EY"; "EX"] [] w else Throw
  | W2Dtmem => (* Wavefields2Dtmem.cpp 60-101 *)
    if snapType =? 0 then Ok [] else if snapType =? 1 then simple ["HX"; "HY"] [] w else if snapType =? 2 then simple ["EZ"] [] w
    else if snapType =? 3 then pair2 "curl" "div" (curl2 d (smEps m) (v "HX") (v "HY")) (div2 d (smVel m) (v "HX") (v "HY"))
    else if snapType =? 4 then Ok (named [("EZ", "EZ"); ("EZ.up", "EZup"); ("EZ.down", "EZdown")] w)
    else if snapType =? 5 then Ok (named [("EZ", "EZ"); ("EZ.left", "EZleft"); ("EZ.right", "EZright")] w)
    else Throw
  | W2Dviscoemem => (* Wavefields2Dviscoemem.cpp 66-90 *)
    if snapType =? 1 then simple ["HZ"] [] w else if snapType =? 2 then simple ["EX"; "EY"] ["RX"; "RY"] w else Throw
  | W2Dviscotmem => (* Wavefields2Dviscotmem.cpp 64-96 *)
    if snapType =? 1 then simple ["HX"; "HY"] [] w else if snapType =? 2 then simple ["EZ"] ["RZ"] w
    else if snapType =? 3 then pair2 "curl" "div" (curl2 d (smEps m) (v "HX") (v "HY")) (div2 d (smVel m) (v "HX") (v "HY")) else Throw
  | W3Demem => (* Wavefields3Demem.cpp 59-90 *)
    if snapType =? 1 then simple ["HX"; "HY"; "HZ"] [] w else if snapType =? 2 then simple ["EX"; "EY"; "EZ"] [] w
    else if snapType =? 3 then pair2 "CURL" "DIV" (curl3 d (smEps m) (v "HX") (v "HY") (v "HZ")) (div3 d (smVel m) (v "HX") (v "HY") (v "HZ")) else Throw
  | W3Dviscoemem => (* Wavefields3Dviscoemem.cpp 71-107 *)
    if snapType =? 1 then simple ["HX"; "HY"; "HZ"] [] w else if snapType =? 2 then simple ["EX"; "EY"; "EZ"] ["RX"; "RY"; "RZ"] w
    else if snapType =? 3 then pair2 "CURL" "DIV" (curl3 d (smEps m) (v "HX") (v "HY") (v "HZ")) (div3 d (smSigma m) (v "HX") (v "HY") (v "HZ")) else Throw
  end.
(** File name of a component: baseName + "." + label + "." + time step. *)
Definition snapFile (base label : string) (t : Z) : string := base ++ "." ++ label ++ "." ++ decStr t.
(** The snapshot of a time step: Simulation.cpp 466-475; [hilbert] is randInd. *)
Definition snapshot (k : wkind) (snapType hilbert dec : Z) (d : derivs) (m : snapmodel) (w : wave) (base : string) (t : Z) : res (list (string * vec)) :=
  let files b (l : list (string * vec)) := map (fun p => (snapFile b (fst p) t, snd p)) l in
  let h := base ++ ".HilbertT" in
  if (hilbert =? 1) && negb (dec =? 0) then
    a <- wwrite k 1 d m w ;; b <- wwrite k 2 d m w ;; Ok ((files h a ++ files h b)%list)
  else a <- wwrite k snapType d m w ;; Ok (files base a).
(** The snapshot type in effect: Simulation.cpp 314-322. *)
Definition snapTypeOf (snapType dec : Z) : Z := if dec =? 0 then snapType else dec + 3.
