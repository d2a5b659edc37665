(** The fourteen forward solvers as programs (see M_Prog.v).

    The comment behind each statement is its line number in the file named above the definition.
    The references [vX = wavefield.getRefVX()], [Dxf = derivatives.getDxf()],
    [pWaveModulus = model.getPWaveModulus()] at the beginning of every [run] are modelled by using the
    local name.  The statements [SourceReceiver.applySource(t)] and [gatherSeismogram(t)] that end every
    [run] are [src_prog] and [gather] of M_Prog.v.  SCAI_ASSERT_DEBUG checks are not modelled.
    [(if b then x else y)] is an if statement with else branch, [when b x] one without. *)
From Coq Require Import QArith.
From Verif Require Import M_Prog.
Open Scope Z_scope.
Open Scope string_scope.
Open Scope list_scope.

Definition when (b : bool) (p : list instr) : list instr := if b then p else [].

(** for (int l = 0; l < numRelaxationMechanisms; l++) { ... } *)
Definition loop (L : nat) (body : nat -> list instr) : list instr := flat_map body (seq 0 L).

(** ** Absorbing boundaries and free surface *)

(** src/ForwardSolver/BoundaryCondition/CPML.cpp applyCPML (84-95):
    [temp = a; Psi *= b; temp *= Vec; Psi += temp; Vec += Psi]. *)
Definition applyCPML (vec psi a b : nm) : list instr :=
  [ IMulV psi b; ICoef "cpml_temp" a vec; IAdd psi "cpml_temp"; IAdd vec psi ].

(** src/ForwardSolver/BoundaryCondition/CPML2DAcoustic.cpp 17-41, CPML3DAcoustic.cpp 19-57,
    CPML2D.cpp 25-105, CPML3D.cpp 31-153: the classes agree on the functions they share. *)
Definition apply_p_x (v : nm) := applyCPML v "psi_p_x" "a_x_half" "b_x_half".
Definition apply_p_y (v : nm) := applyCPML v "psi_p_y" "a_y_half" "b_y_half".
Definition apply_p_z (v : nm) := applyCPML v "psi_p_z" "a_z_half" "b_z_half".
Definition apply_sxx_x (v : nm) := applyCPML v "psi_sxx_x" "a_x_half" "b_x_half".
Definition apply_sxy_x (v : nm) := applyCPML v "psi_sxy_x" "a_x" "b_x".
Definition apply_sxz_x (v : nm) := applyCPML v "psi_sxz_x" "a_x" "b_x".
Definition apply_sxy_y (v : nm) := applyCPML v "psi_sxy_y" "a_y" "b_y".
Definition apply_syy_y (v : nm) := applyCPML v "psi_syy_y" "a_y_half" "b_y_half".
Definition apply_syz_y (v : nm) := applyCPML v "psi_syz_y" "a_y" "b_y".
Definition apply_sxz_z (v : nm) := applyCPML v "psi_sxz_z" "a_z" "b_z".
Definition apply_syz_z (v : nm) := applyCPML v "psi_syz_z" "a_z" "b_z".
Definition apply_szz_z (v : nm) := applyCPML v "psi_szz_z" "a_z_half" "b_z_half".
Definition apply_vxx (v : nm) := applyCPML v "psi_vxx" "a_x" "b_x".
Definition apply_vyx (v : nm) := applyCPML v "psi_vyx" "a_x_half" "b_x_half".
Definition apply_vzx (v : nm) := applyCPML v "psi_vzx" "a_x_half" "b_x_half".
Definition apply_vxy (v : nm) := applyCPML v "psi_vxy" "a_y_half" "b_y_half".
Definition apply_vyy (v : nm) := applyCPML v "psi_vyy" "a_y" "b_y".
Definition apply_vzy (v : nm) := applyCPML v "psi_vzy" "a_y_half" "b_y_half".
Definition apply_vxz (v : nm) := applyCPML v "psi_vxz" "a_z_half" "b_z_half".
Definition apply_vyz (v : nm) := applyCPML v "psi_vyz" "a_z_half" "b_z_half".
Definition apply_vzz (v : nm) := applyCPML v "psi_vzz" "a_z" "b_z".

(** src/ForwardSolverEM/BoundaryCondition/CPMLEM2D.cpp 21-73, CPMLEM3D.cpp 25-105.  The two classes agree
    except for apply_hyx: a_x, b_x in 2D (line 51) and a_x_half, b_x_half in 3D (line 69). *)
Definition apply_eyx (v : nm) := applyCPML v "psi_eyx" "a_x_half" "b_x_half".
Definition apply_ezx (v : nm) := applyCPML v "psi_ezx" "a_x_half" "b_x_half".
Definition apply_exy (v : nm) := applyCPML v "psi_exy" "a_y_half" "b_y_half".
Definition apply_ezy (v : nm) := applyCPML v "psi_ezy" "a_y_half" "b_y_half".
Definition apply_hyx (v : nm) := applyCPML v "psi_hyx" "a_x" "b_x".
Definition apply_hyx3D (v : nm) := applyCPML v "psi_hyx" "a_x_half" "b_x_half".
Definition apply_hzx (v : nm) := applyCPML v "psi_hzx" "a_x" "b_x".
Definition apply_hxy (v : nm) := applyCPML v "psi_hxy" "a_y" "b_y".
Definition apply_hzy (v : nm) := applyCPML v "psi_hzy" "a_y" "b_y".
Definition apply_eyz (v : nm) := applyCPML v "psi_eyz" "a_z_half" "b_z_half".
Definition apply_exz (v : nm) := applyCPML v "psi_exz" "a_z_half" "b_z_half".
Definition apply_hxz (v : nm) := applyCPML v "psi_hxz" "a_z" "b_z".
Definition apply_hyz (v : nm) := applyCPML v "psi_hyz" "a_z" "b_z".

(** src/ForwardSolver/BoundaryCondition/ABS2D.cpp apply (14-46), ABS3D.cpp apply (15-): every argument is
    multiplied by the vector damping. *)
Definition abs_apply (vs : list string) : list instr := map (fun v : string => IMulV v "damping") vs.

(** src/ForwardSolver/BoundaryCondition/FreeSurface.cpp setSurfaceZero (14-20). *)
Definition setSurfaceZero (v : nm) : list instr := [ IMulV v "setZeroFreeSurface" ].

(** src/ForwardSolver/BoundaryCondition/FreeSurface2Delastic.cpp exchangeHorizontalUpdate (36-45). *)
Definition exchange_2Delastic (sumH vyy Sxx : nm) : list instr :=
  [ ICoef "fs_temp" "scaleHorizontalUpdate" sumH; IAdd Sxx "fs_temp";
    ICoef "fs_temp" "scaleVerticalUpdate" vyy; ISub Sxx "fs_temp" ].

(** src/ForwardSolver/BoundaryCondition/FreeSurface3Delastic.cpp exchangeHorizontalUpdate (35-46). *)
Definition exchange_3Delastic (sumH vyy Sxx Szz : nm) : list instr :=
  [ ICoef "fs_temp" "scaleHorizontalUpdate" sumH; IAdd Sxx "fs_temp"; IAdd Szz "fs_temp";
    ICoef "fs_temp" "scaleVerticalUpdate" vyy; ISub Sxx "fs_temp"; ISub Szz "fs_temp" ].

(** src/ForwardSolver/BoundaryCondition/FreeSurface2Dviscoelastic.cpp exchangeHorizontalUpdate (31-62);
    Rxx is the array of relaxation variables. *)
Definition exchange_2Dviscoelastic (L : nat) (sumH vyy Sxx : nm) (Rxx : string) : list instr :=
  loop L (fun l =>
    [ ICoef "fs_temp" "selectFreeSurface" (N Rxx l); ISubS Sxx (SN "DThalf") "fs_temp" ]) ++
  [ ICoef "fs_temp" "scaleStressHorizontalUpdate" sumH; IAdd Sxx "fs_temp";
    ICoef "fs_temp" "scaleStressVerticalUpdate" vyy; ISub Sxx "fs_temp" ] ++
  loop L (fun l =>
    [ ICoef "fs_temp" (N "scaleRelaxationHorizontalUpdate" l) sumH; IAdd (N Rxx l) "fs_temp";
      ICoef "fs_temp" (N "scaleRelaxationVerticalUpdate" l) vyy; ISub (N Rxx l) "fs_temp";
      ICoef "fs_temp" "selectFreeSurface" (N Rxx l); IAddS Sxx (SN "DThalf") "fs_temp" ]).

(** src/ForwardSolver/BoundaryCondition/FreeSurface3Dviscoelastic.cpp exchangeHorizontalUpdate (33-74). *)
Definition exchange_3Dviscoelastic (L : nat) (sumH vyy Sxx Szz : nm) (Rxx Rzz : string) : list instr :=
  loop L (fun l =>
    [ ICoef "fs_temp" "selectFreeSurface" (N Rxx l); ISubS Sxx (SN "DThalf") "fs_temp";
      ICoef "fs_temp" "selectFreeSurface" (N Rzz l); ISubS Szz (SN "DThalf") "fs_temp" ]) ++
  [ ICoef "fs_temp" "scaleStressHorizontalUpdate" sumH; IAdd Sxx "fs_temp"; IAdd Szz "fs_temp";
    ICoef "fs_temp" "scaleStressVerticalUpdate" vyy; ISub Sxx "fs_temp"; ISub Szz "fs_temp" ] ++
  loop L (fun l =>
    [ ICoef "fs_temp" (N "scaleRelaxationHorizontalUpdate" l) sumH;
      IAdd (N Rxx l) "fs_temp"; IAdd (N Rzz l) "fs_temp";
      ICoef "fs_temp" (N "scaleRelaxationVerticalUpdate" l) vyy;
      ISub (N Rxx l) "fs_temp"; ISub (N Rzz l) "fs_temp";
      ICoef "fs_temp" "selectFreeSurface" (N Rxx l); IAddS Sxx (SN "DThalf") "fs_temp";
      ICoef "fs_temp" "selectFreeSurface" (N Rzz l); IAddS Szz (SN "DThalf") "fs_temp" ]).

(** ** The time steps *)

(** src/ForwardSolver/ForwardSolver2Dacoustic.cpp run, lines 121-191. *)
Definition run_2Dacoustic (c : cfg) : list instr :=
  [ IMv "update" "Dxf" "p" (* 121 *) ] ++
  when (c_pml c) (* 122 *)
    (apply_p_x "update" (* 123 *)) ++
  [ IMulV "update" "inverseDensityAverageX" (* 125 *);
    IAdd "vX" "update" (* 126 *) ] ++
  when (c_itX c) (* 128 *)
    ([ ISwap "update_temp" "vX" (* 133 *);
       IMv "vX" "DinterpolateStaggeredX" "update_temp" (* 134 *) ]) ++
  (if (c_fs c =? 1)%Z (* 137 *)
   then [ IMv "update" "DyfFreeSurface" "p" (* 139 *) ]
   else [ IMv "update" "Dyf" "p" (* 141 *) ]) ++
  when (c_pml c) (* 144 *)
    (apply_p_y "update" (* 145 *)) ++
  [ IMulV "update" "inverseDensityAverageY" (* 147 *);
    IAdd "vY" "update" (* 148 *) ] ++
  when (c_itF c) (* 150 *)
    ([ ISwap "update_temp" "vY" (* 155 *);
       IMv "vY" "DinterpolateFull" "update_temp" (* 156 *) ]) ++
  [ IMv "update" "Dxb" "vX" (* 162 *) ] ++
  when (c_pml c) (* 163 *)
    (apply_vxx "update" (* 164 *)) ++
  [ IMv "update_temp" "Dyb" "vY" (* 167 *) ] ++
  when (c_pml c) (* 168 *)
    (apply_vyy "update_temp" (* 169 *)) ++
  [ IAdd "update" "update_temp" (* 171 *);
    IMulV "update" "pWaveModulus" (* 173 *);
    IAdd "p" "update" (* 174 *) ] ++
  when (c_damp c) (* 177 *)
    (abs_apply ["p"; "vX"; "vY"] (* 178 *)) ++
  when (c_itF c) (* 181 *)
    ([ ISwap "update_temp" "p" (* 183 *);
       IMv "p" "DinterpolateFull" "update_temp" (* 184 *) ]) ++
  when (c_fs c =? 1)%Z (* 187 *)
    (setSurfaceZero "p" (* 188 *)).

(** src/ForwardSolver/ForwardSolver2Delastic.cpp run, lines 163-291. *)
Definition run_2Delastic (c : cfg) : list instr :=
  [ IMv "update" "Dxf" "Sxx" (* 163 *) ] ++
  when (c_pml c) (* 164 *)
    (apply_sxx_x "update" (* 165 *)) ++
  (if (c_fs c =? 1)%Z (* 168 *)
   then [ IMv "update_temp" "DybStaggeredXFreeSurface" "Sxy" (* 170 *) ]
   else [ IMv "update_temp" "DybStaggeredX" "Sxy" (* 172 *) ]) ++
  when (c_pml c) (* 175 *)
    (apply_sxy_y "update_temp" (* 176 *)) ++
  [ IAdd "update" "update_temp" (* 178 *);
    IMulV "update" "inverseDensityAverageX" (* 180 *);
    IAdd "vX" "update" (* 181 *) ] ++
  when (c_itX c) (* 183 *)
    ([ ISwap "update_temp" "vX" (* 185 *);
       IMv "vX" "DinterpolateStaggeredX" "update_temp" (* 186 *) ]) ++
  [ IMv "update" "Dxb" "Sxy" (* 192 *) ] ++
  when (c_pml c) (* 193 *)
    (apply_sxy_x "update" (* 194 *)) ++
  (if (c_fs c =? 1)%Z (* 197 *)
   then [ IMv "update_temp" "DyfFreeSurface" "Syy" (* 199 *) ]
   else [ IMv "update_temp" "Dyf" "Syy" (* 201 *) ]) ++
  when (c_pml c) (* 204 *)
    (apply_syy_y "update_temp" (* 205 *)) ++
  [ IAdd "update" "update_temp" (* 207 *);
    IMulV "update" "inverseDensityAverageY" (* 209 *);
    IAdd "vY" "update" (* 210 *) ] ++
  when (c_itF c) (* 212 *)
    ([ ISwap "update_temp" "vY" (* 217 *);
       IMv "vY" "DinterpolateFull" "update_temp" (* 218 *) ]) ++
  [ IMv "vxx" "Dxb" "vX" (* 224 *);
    IMv "vyy" "Dyb" "vY" (* 225 *) ] ++
  when (c_pml c) (* 226 *)
    (apply_vxx "vxx" (* 227 *) ++
     apply_vyy "vyy" (* 228 *)) ++
  [ ICp "update" "vxx" (* 231 *);
    IAdd "update" "vyy" (* 232 *);
    IMulV "update" "pWaveModulus" (* 233 *);
    IAdd "Sxx" "update" (* 235 *);
    IAdd "Syy" "update" (* 236 *);
    ICp "update" "vyy" (* 238 *);
    IMulV "update" "sWaveModulus" (* 239 *);
    ISubS "Sxx" (SQ 2) "update" (* 240 *);
    ICp "update" "vxx" (* 241 *);
    IMulV "update" "sWaveModulus" (* 242 *);
    ISubS "Syy" (SQ 2) "update" (* 243 *) ] ++
  when (c_itF c) (* 245 *)
    ([ ISwap "update_temp" "Sxx" (* 247 *);
       IMv "Sxx" "DinterpolateFull" "update_temp" (* 248 *);
       ISwap "update_temp" "Syy" (* 250 *);
       IMv "Syy" "DinterpolateFull" "update_temp" (* 251 *) ]) ++
  [ IMv "update" "DyfStaggeredX" "vX" (* 257 *) ] ++
  when (c_pml c) (* 258 *)
    (apply_vxy "update" (* 259 *)) ++
  [ IMv "update_temp" "Dxf" "vY" (* 262 *) ] ++
  when (c_pml c) (* 263 *)
    (apply_vyx "update_temp" (* 264 *)) ++
  [ IAdd "update" "update_temp" (* 266 *);
    IMulV "update" "sWaveModulusAverageXY" (* 268 *);
    IAdd "Sxy" "update" (* 269 *) ] ++
  when (c_itX c) (* 271 *)
    ([ ISwap "update_temp" "Sxy" (* 276 *);
       IMv "Sxy" "DinterpolateStaggeredX" "update_temp" (* 277 *) ]) ++
  when (c_fs c =? 1)%Z (* 281 *)
    (exchange_2Delastic "vxx" "vyy" "Sxx" (* 282 *) ++
     setSurfaceZero "Syy" (* 283 *)) ++
  when (c_damp c) (* 287 *)
    (abs_apply ["Sxx"; "Syy"; "Sxy"; "vX"; "vY"] (* 288 *)).

(** src/ForwardSolver/ForwardSolver2Dsh.cpp run, lines 140-190. *)
Definition run_2Dsh (c : cfg) : list instr :=
  [ IMv "update" "Dxb" "Sxz" (* 140 *) ] ++
  (if (c_fs c =? 1)%Z (* 142 *)
   then [ IMv "update_temp" "DybFreeSurface" "Syz" (* 144 *) ]
   else [ IMv "update_temp" "Dyb" "Syz" (* 146 *) ]) ++
  when (c_pml c) (* 149 *)
    (apply_sxz_x "update" (* 150 *) ++
     apply_syz_y "update_temp" (* 151 *)) ++
  [ IAdd "update" "update_temp" (* 153 *);
    IMulV "update" "inverseDensity" (* 155 *);
    IAdd "vZ" "update" (* 156 *);
    IMv "update" "Dxf" "vZ" (* 162 *) ] ++
  when (c_pml c) (* 163 *)
    (apply_vzx "update" (* 164 *)) ++
  [ IMulV "update" "sWaveModulusAverageXZ" (* 167 *);
    IAdd "Sxz" "update" (* 169 *);
    IMv "update" "Dyf" "vZ" (* 171 *) ] ++
  when (c_pml c) (* 172 *)
    (apply_vzy "update" (* 173 *)) ++
  [ IMulV "update" "sWaveModulusAverageYZ" (* 175 *);
    IAdd "Syz" "update" (* 177 *) ] ++
  when (c_damp c) (* 186 *)
    (abs_apply ["Sxz"; "Syz"; "vZ"] (* 187 *)).

(** src/ForwardSolver/ForwardSolver2Dviscoelastic.cpp run, lines 172-315. *)
Definition run_2Dviscoelastic (c : cfg) : list instr :=
  [ IMv "update" "Dxf" "Sxx" (* 172 *) ] ++
  when (c_pml c) (* 173 *)
    (apply_sxx_x "update" (* 174 *)) ++
  (if (c_fs c =? 1)%Z (* 177 *)
   then [ IMv "update_temp" "DybFreeSurface" "Sxy" (* 179 *) ]
   else [ IMv "update_temp" "Dyb" "Sxy" (* 181 *) ]) ++
  when (c_pml c) (* 183 *)
    (apply_sxy_y "update_temp" (* 184 *)) ++
  [ IAdd "update" "update_temp" (* 186 *);
    IMulV "update" "inverseDensityAverageX" (* 187 *);
    IAdd "vX" "update" (* 188 *);
    IMv "update" "Dxb" "Sxy" (* 190 *) ] ++
  when (c_pml c) (* 191 *)
    (apply_sxy_x "update" (* 192 *)) ++
  (if (c_fs c =? 1)%Z (* 195 *)
   then [ IMv "update_temp" "DyfFreeSurface" "Syy" (* 197 *) ]
   else [ IMv "update_temp" "Dyf" "Syy" (* 199 *) ]) ++
  when (c_pml c) (* 201 *)
    (apply_syy_y "update_temp" (* 202 *)) ++
  [ IAdd "update" "update_temp" (* 204 *);
    IMulV "update" "inverseDensityAverageY" (* 206 *);
    IAdd "vY" "update" (* 207 *);
    IMv "vxx" "Dxb" "vX" (* 213 *);
    IMv "vyy" "Dyb" "vY" (* 214 *) ] ++
  when (c_pml c) (* 215 *)
    (apply_vxx "vxx" (* 216 *) ++
     apply_vyy "vyy" (* 217 *)) ++
  [ ICp "update" "vxx" (* 220 *);
    IAdd "update" "vyy" (* 221 *);
    IMulV "update" "pWaveModulus" (* 222 *) ] ++
  loop (c_L c) (fun l => (* 224 *)
     [ IScal "update2" (SN (N "inverseRelaxationTime" l)) "update" (* 225 *);
       IMulV "update2" "tauP" (* 226 *);
       IAddS "Sxx" (SN "DThalf") (N "Rxx" l) (* 228 *);
       IMulS (N "Rxx" l) (SN (N "viscoCoeff1" l)) (* 229 *);
       ISub (N "Rxx" l) "update2" (* 230 *);
       IAddS "Syy" (SN "DThalf") (N "Ryy" l) (* 232 *);
       IMulS (N "Ryy" l) (SN (N "viscoCoeff1" l)) (* 233 *);
       ISub (N "Ryy" l) "update2" (* 234 *) ]) ++
  [ IMulV "update" "onePlusLtauP" (* 236 *);
    IAdd "Sxx" "update" (* 237 *);
    IAdd "Syy" "update" (* 238 *);
    ICp "update" "vyy" (* 241 *);
    IMulV "update" "sWaveModulus" (* 242 *);
    IMulS "update" (SQ 2) (* 243 *) ] ++
  loop (c_L c) (fun l => (* 245 *)
     [ IScal "update2" (SN (N "inverseRelaxationTime" l)) "update" (* 246 *);
       IMulV "update2" "tauS" (* 248 *);
       IAdd (N "Rxx" l) "update2" (* 249 *);
       IMulS (N "Rxx" l) (SN (N "viscoCoeff2" l)) (* 251 *);
       IAddS "Sxx" (SN "DThalf") (N "Rxx" l) (* 252 *) ]) ++
  [ IMulV "update" "onePlusLtauS" (* 254 *);
    ISub "Sxx" "update" (* 255 *);
    ICp "update" "vxx" (* 258 *);
    IMulV "update" "sWaveModulus" (* 259 *);
    IMulS "update" (SQ 2) (* 260 *) ] ++
  loop (c_L c) (fun l => (* 262 *)
     [ IScal "update2" (SN (N "inverseRelaxationTime" l)) "update" (* 263 *);
       IMulV "update2" "tauS" (* 264 *);
       IAdd (N "Ryy" l) "update2" (* 265 *);
       IMulS (N "Ryy" l) (SN (N "viscoCoeff2" l)) (* 267 *);
       IAddS "Syy" (SN "DThalf") (N "Ryy" l) (* 268 *) ]) ++
  [ IMulV "update" "onePlusLtauS" (* 270 *);
    ISub "Syy" "update" (* 271 *);
    IMv "update" "Dyf" "vX" (* 274 *) ] ++
  when (c_pml c) (* 275 *)
    (apply_vxy "update" (* 276 *)) ++
  [ IMv "update_temp" "Dxf" "vY" (* 279 *) ] ++
  when (c_pml c) (* 280 *)
    (apply_vyx "update_temp" (* 281 *)) ++
  [ IAdd "update" "update_temp" (* 283 *);
    IMulV "update" "sWaveModulusAverageXY" (* 285 *) ] ++
  loop (c_L c) (fun l => (* 287 *)
     [ IAddS "Sxy" (SN "DThalf") (N "Rxy" l) (* 288 *);
       IMulS (N "Rxy" l) (SN (N "viscoCoeff1" l)) (* 289 *);
       IScal "update2" (SN (N "inverseRelaxationTime" l)) "update" (* 291 *);
       IMulV "update2" "tauSAverageXY" (* 292 *);
       ISub (N "Rxy" l) "update2" (* 293 *);
       IMulS (N "Rxy" l) (SN (N "viscoCoeff2" l)) (* 295 *);
       IAddS "Sxy" (SN "DThalf") (N "Rxy" l) (* 296 *) ]) ++
  [ IMulV "update" "onePlusLtauS" (* 298 *);
    IAdd "Sxy" "update" (* 299 *) ] ++
  when (negb (c_fs c =? 0)%Z) (* 302 *)
    (exchange_2Dviscoelastic (c_L c) "vxx" "vyy" "Sxx" "Rxx" (* 303 *) ++
     setSurfaceZero "Syy" (* 304 *) ++
     loop (c_L c) (fun l => (* 305 *)
        setSurfaceZero (N "Ryy" l) (* 306 *))) ++
  when (c_damp c) (* 311 *)
    (abs_apply ["Sxx"; "Syy"; "Sxy"; "vX"; "vY"] (* 312 *)).

(** src/ForwardSolver/ForwardSolver2Dviscosh.cpp run, lines 164-238. *)
Definition run_2Dviscosh (c : cfg) : list instr :=
  [ IMv "update" "Dxb" "Sxz" (* 164 *) ] ++
  (if (c_fs c =? 1)%Z (* 166 *)
   then [ IMv "update_temp" "DybFreeSurface" "Syz" (* 168 *) ]
   else [ IMv "update_temp" "Dyb" "Syz" (* 170 *) ]) ++
  when (c_pml c) (* 173 *)
    (apply_sxz_x "update" (* 174 *) ++
     apply_syz_y "update_temp" (* 175 *)) ++
  [ IAdd "update" "update_temp" (* 177 *);
    IMulV "update" "inverseDensity" (* 179 *);
    IAdd "vZ" "update" (* 180 *);
    IMv "update" "Dxf" "vZ" (* 187 *) ] ++
  when (c_pml c) (* 188 *)
    (apply_vzx "update" (* 189 *)) ++
  [ IMulV "update" "sWaveModulusAverageXZ" (* 191 *) ] ++
  loop (c_L c) (fun l => (* 193 *)
     [ IAddS "Sxz" (SN "DThalf") (N "Rxz" l) (* 194 *);
       IMulS (N "Rxz" l) (SN (N "viscoCoeff1" l)) (* 195 *);
       IScal "update2" (SN (N "inverseRelaxationTime" l)) "update" (* 197 *);
       IMulV "update2" "tauSAverageXZ" (* 198 *);
       ISub (N "Rxz" l) "update2" (* 199 *);
       IMulS (N "Rxz" l) (SN (N "viscoCoeff2" l)) (* 201 *);
       IAddS "Sxz" (SN "DThalf") (N "Rxz" l) (* 202 *) ]) ++
  [ IMulV "update" "onePlusLtauS" (* 204 *);
    IAdd "Sxz" "update" (* 205 *);
    IMv "update" "Dyf" "vZ" (* 208 *) ] ++
  when (c_pml c) (* 209 *)
    (apply_vzy "update" (* 210 *)) ++
  [ IMulV "update" "sWaveModulusAverageYZ" (* 212 *) ] ++
  loop (c_L c) (fun l => (* 214 *)
     [ IAddS "Syz" (SN "DThalf") (N "Ryz" l) (* 215 *);
       IMulS (N "Ryz" l) (SN (N "viscoCoeff1" l)) (* 216 *);
       IScal "update2" (SN (N "inverseRelaxationTime" l)) "update" (* 218 *);
       IMulV "update2" "tauSAverageYZ" (* 219 *);
       ISub (N "Ryz" l) "update2" (* 220 *);
       IMulS (N "Ryz" l) (SN (N "viscoCoeff2" l)) (* 222 *);
       IAddS "Syz" (SN "DThalf") (N "Ryz" l) (* 223 *) ]) ++
  [ IMulV "update" "onePlusLtauS" (* 225 *);
    IAdd "Syz" "update" (* 226 *) ] ++
  when (c_damp c) (* 234 *)
    (abs_apply ["Sxz"; "Syz"; "vZ"] (* 235 *)).

(** src/ForwardSolver/ForwardSolver3Dacoustic.cpp run, lines 131-227. *)
Definition run_3Dacoustic (c : cfg) : list instr :=
  [ IMv "update" "Dxf" "p" (* 131 *) ] ++
  when (c_pml c) (* 132 *)
    (apply_p_x "update" (* 133 *)) ++
  [ IMulV "update" "inverseDensityAverageX" (* 135 *);
    IAdd "vX" "update" (* 136 *) ] ++
  when (c_itX c) (* 138 *)
    ([ ISwap "update_temp" "vX" (* 143 *);
       IMv "vX" "DinterpolateStaggeredX" "update_temp" (* 144 *) ]) ++
  (if (c_fs c =? 1)%Z (* 149 *)
   then [ IMv "update" "DyfFreeSurface" "p" (* 151 *) ]
   else [ IMv "update" "Dyf" "p" (* 153 *) ]) ++
  when (c_pml c) (* 156 *)
    (apply_p_y "update" (* 157 *)) ++
  [ IMulV "update" "inverseDensityAverageY" (* 159 *);
    IAdd "vY" "update" (* 160 *) ] ++
  when (c_itF c) (* 162 *)
    ([ ISwap "update_temp" "vY" (* 167 *);
       IMv "vY" "DinterpolateFull" "update_temp" (* 168 *) ]) ++
  [ IMv "update" "Dzf" "p" (* 173 *) ] ++
  when (c_pml c) (* 174 *)
    (apply_p_z "update" (* 175 *)) ++
  [ IMulV "update" "inverseDensityAverageZ" (* 177 *);
    IAdd "vZ" "update" (* 178 *) ] ++
  when (c_itZ c) (* 180 *)
    ([ ISwap "update_temp" "vZ" (* 185 *);
       IMv "vZ" "DinterpolateStaggeredZ" "update_temp" (* 186 *) ]) ++
  [ IMv "update" "Dxb" "vX" (* 192 *) ] ++
  when (c_pml c) (* 193 *)
    (apply_vxx "update" (* 194 *)) ++
  [ IMv "update_temp" "Dyb" "vY" (* 197 *) ] ++
  when (c_pml c) (* 198 *)
    (apply_vyy "update_temp" (* 199 *)) ++
  [ IAdd "update" "update_temp" (* 201 *);
    IMv "update_temp" "Dzb" "vZ" (* 203 *) ] ++
  when (c_pml c) (* 204 *)
    (apply_vzz "update_temp" (* 205 *)) ++
  [ IAdd "update" "update_temp" (* 207 *);
    IMulV "update" "pWaveModulus" (* 209 *);
    IAdd "p" "update" (* 210 *) ] ++
  when (c_damp c) (* 213 *)
    (abs_apply ["p"; "vX"; "vY"; "vZ"] (* 214 *)) ++
  when (c_itF c) (* 217 *)
    ([ ISwap "update_temp" "p" (* 219 *);
       IMv "p" "DinterpolateFull" "update_temp" (* 220 *) ]) ++
  when (c_fs c =? 1)%Z (* 223 *)
    (setSurfaceZero "p" (* 224 *)).

(** src/ForwardSolver/ForwardSolver3Delastic.cpp run, lines 181-411. *)
Definition run_3Delastic (c : cfg) : list instr :=
  [ IMv "update" "Dxf" "Sxx" (* 181 *) ] ++
  when (c_pml c) (* 182 *)
    (apply_sxx_x "update" (* 183 *)) ++
  (if (c_fs c =? 1)%Z (* 186 *)
   then [ IMv "update_temp" "DybStaggeredXFreeSurface" "Sxy" (* 188 *) ]
   else [ IMv "update_temp" "DybStaggeredX" "Sxy" (* 190 *) ]) ++
  when (c_pml c) (* 193 *)
    (apply_sxy_y "update_temp" (* 194 *)) ++
  [ IAdd "update" "update_temp" (* 196 *);
    IMv "update_temp" "Dzb" "Sxz" (* 198 *) ] ++
  when (c_pml c) (* 199 *)
    (apply_sxz_z "update_temp" (* 200 *)) ++
  [ IAdd "update" "update_temp" (* 202 *);
    IMulV "update" "inverseDensityAverageX" (* 203 *);
    IAdd "vX" "update" (* 204 *) ] ++
  when (c_itX c) (* 206 *)
    ([ ISwap "update_temp" "vX" (* 208 *);
       IMv "vX" "DinterpolateStaggeredX" "update_temp" (* 209 *) ]) ++
  [ IMv "update" "Dxb" "Sxy" (* 215 *) ] ++
  when (c_pml c) (* 216 *)
    (apply_sxy_x "update" (* 217 *)) ++
  (if (c_fs c =? 1)%Z (* 220 *)
   then [ IMv "update_temp" "DyfFreeSurface" "Syy" (* 222 *) ]
   else [ IMv "update_temp" "Dyf" "Syy" (* 224 *) ]) ++
  when (c_pml c) (* 227 *)
    (apply_syy_y "update_temp" (* 228 *)) ++
  [ IAdd "update" "update_temp" (* 230 *);
    IMv "update_temp" "Dzb" "Syz" (* 232 *) ] ++
  when (c_pml c) (* 233 *)
    (apply_syz_z "update_temp" (* 234 *)) ++
  [ IAdd "update" "update_temp" (* 236 *);
    IMulV "update" "inverseDensityAverageY" (* 238 *);
    IAdd "vY" "update" (* 239 *) ] ++
  when (c_itF c) (* 241 *)
    ([ ISwap "update_temp" "vY" (* 246 *);
       IMv "vY" "DinterpolateFull" "update_temp" (* 247 *) ]) ++
  [ IMv "update" "Dxb" "Sxz" (* 253 *) ] ++
  when (c_pml c) (* 254 *)
    (apply_sxz_x "update" (* 255 *)) ++
  (if (c_fs c =? 1)%Z (* 258 *)
   then [ IMv "update_temp" "DybStaggeredZFreeSurface" "Syz" (* 260 *) ]
   else [ IMv "update_temp" "DybStaggeredZ" "Syz" (* 262 *) ]) ++
  when (c_pml c) (* 265 *)
    (apply_syz_y "update_temp" (* 266 *)) ++
  [ IAdd "update" "update_temp" (* 268 *);
    IMv "update_temp" "Dzf" "Szz" (* 270 *) ] ++
  when (c_pml c) (* 271 *)
    (apply_szz_z "update_temp" (* 272 *)) ++
  [ IAdd "update" "update_temp" (* 274 *);
    IMulV "update" "inverseDensityAverageZ" (* 276 *);
    IAdd "vZ" "update" (* 277 *) ] ++
  when (c_itZ c) (* 279 *)
    ([ ISwap "update_temp" "vZ" (* 281 *);
       IMv "vZ" "DinterpolateStaggeredZ" "update_temp" (* 282 *) ]) ++
  [ IMv "vxx" "Dxb" "vX" (* 288 *);
    IMv "vyy" "Dyb" "vY" (* 289 *);
    IMv "vzz" "Dzb" "vZ" (* 290 *) ] ++
  when (c_pml c) (* 291 *)
    (apply_vxx "vxx" (* 292 *) ++
     apply_vyy "vyy" (* 293 *) ++
     apply_vzz "vzz" (* 294 *)) ++
  [ ICp "update" "vxx" (* 297 *);
    IAdd "update" "vyy" (* 298 *);
    IAdd "update" "vzz" (* 299 *);
    IMulV "update" "pWaveModulus" (* 300 *);
    IAdd "Sxx" "update" (* 302 *);
    IAdd "Syy" "update" (* 303 *);
    IAdd "Szz" "update" (* 304 *);
    ISum "update" "vyy" "vzz" (* 306 *);
    IMulV "update" "sWaveModulus" (* 307 *);
    ISubS "Sxx" (SQ 2) "update" (* 308 *);
    ISum "update" "vxx" "vzz" (* 309 *);
    IMulV "update" "sWaveModulus" (* 310 *);
    ISubS "Syy" (SQ 2) "update" (* 311 *);
    ISum "update" "vxx" "vyy" (* 312 *);
    IMulV "update" "sWaveModulus" (* 313 *);
    ISubS "Szz" (SQ 2) "update" (* 314 *) ] ++
  when (c_itF c) (* 316 *)
    ([ ISwap "update_temp" "Sxx" (* 318 *);
       IMv "Sxx" "DinterpolateFull" "update_temp" (* 319 *);
       ISwap "update_temp" "Syy" (* 321 *);
       IMv "Syy" "DinterpolateFull" "update_temp" (* 322 *);
       ISwap "update_temp" "Szz" (* 324 *);
       IMv "Szz" "DinterpolateFull" "update_temp" (* 325 *) ]) ++
  [ IMv "update" "DyfStaggeredX" "vX" (* 331 *) ] ++
  when (c_pml c) (* 332 *)
    (apply_vxy "update" (* 333 *)) ++
  [ IMv "update_temp" "Dxf" "vY" (* 335 *) ] ++
  when (c_pml c) (* 336 *)
    (apply_vyx "update_temp" (* 337 *)) ++
  [ IAdd "update" "update_temp" (* 340 *);
    IMulV "update" "sWaveModulusAverageXY" (* 341 *);
    IAdd "Sxy" "update" (* 342 *) ] ++
  when (c_itX c) (* 344 *)
    ([ ISwap "update_temp" "Sxy" (* 349 *);
       IMv "Sxy" "DinterpolateStaggeredX" "update_temp" (* 350 *) ]) ++
  [ IMv "update" "Dzf" "vX" (* 353 *) ] ++
  when (c_pml c) (* 354 *)
    (apply_vxz "update" (* 355 *)) ++
  [ IMv "update_temp" "Dxf" "vZ" (* 357 *) ] ++
  when (c_pml c) (* 358 *)
    (apply_vzx "update_temp" (* 359 *)) ++
  [ IAdd "update" "update_temp" (* 362 *);
    IMulV "update" "sWaveModulusAverageXZ" (* 363 *);
    IAdd "Sxz" "update" (* 364 *) ] ++
  when (c_itXZ c) (* 366 *)
    ([ ISwap "update_temp" "Sxz" (* 368 *);
       IMv "Sxz" "DinterpolateStaggeredXZ" "update_temp" (* 369 *) ]) ++
  [ IMv "update" "Dzf" "vY" (* 372 *) ] ++
  when (c_pml c) (* 373 *)
    (apply_vyz "update" (* 374 *)) ++
  [ IMv "update_temp" "DyfStaggeredZ" "vZ" (* 376 *) ] ++
  when (c_pml c) (* 377 *)
    (apply_vzy "update_temp" (* 378 *)) ++
  [ IAdd "update" "update_temp" (* 380 *);
    IMulV "update" "sWaveModulusAverageYZ" (* 381 *);
    IAdd "Syz" "update" (* 382 *) ] ++
  when (c_itZ c) (* 384 *)
    ([ ISwap "update_temp" "Syz" (* 389 *);
       IMv "Syz" "DinterpolateStaggeredZ" "update_temp" (* 390 *) ]) ++
  when (c_itZ c) (* 393 *)
    ([ ISwap "update_temp" "Syz" (* 395 *);
       IMv "Syz" "DinterpolateStaggeredZ" "update_temp" (* 396 *) ]) ++
  when (c_fs c =? 1)%Z (* 400 *)
    ([ ISum "update" "vxx" "vzz" (* 401 *) ] ++
     setSurfaceZero "Syy" (* 402 *) ++
     exchange_3Delastic "update" "vyy" "Sxx" "Szz" (* 403 *)) ++
  when (c_damp c) (* 407 *)
    (abs_apply ["Sxx"; "Syy"; "Szz"; "Sxy"; "Sxz"; "Syz"; "vX"; "vY"; "vZ"] (* 408 *)).

(** src/ForwardSolver/ForwardSolver3Dviscoelastic.cpp run, lines 188-451. *)
Definition run_3Dviscoelastic (c : cfg) : list instr :=
  [ IMv "update" "Dxf" "Sxx" (* 188 *) ] ++
  when (c_pml c) (* 189 *)
    (apply_sxx_x "update" (* 190 *)) ++
  (if (c_fs c =? 1)%Z (* 193 *)
   then [ IMv "update_temp" "DybFreeSurface" "Sxy" (* 195 *) ]
   else [ IMv "update_temp" "Dyb" "Sxy" (* 197 *) ]) ++
  when (c_pml c) (* 200 *)
    (apply_sxy_y "update_temp" (* 201 *)) ++
  [ IAdd "update" "update_temp" (* 203 *);
    IMv "update_temp" "Dzb" "Sxz" (* 205 *) ] ++
  when (c_pml c) (* 206 *)
    (apply_sxz_z "update_temp" (* 207 *)) ++
  [ IAdd "update" "update_temp" (* 209 *);
    IMulV "update" "inverseDensityAverageX" (* 211 *);
    IAdd "vX" "update" (* 212 *);
    IMv "update" "Dxb" "Sxy" (* 214 *) ] ++
  when (c_pml c) (* 215 *)
    (apply_sxy_x "update" (* 216 *)) ++
  (if (c_fs c =? 1)%Z (* 219 *)
   then [ IMv "update_temp" "DyfFreeSurface" "Syy" (* 221 *) ]
   else [ IMv "update_temp" "Dyf" "Syy" (* 223 *) ]) ++
  when (c_pml c) (* 226 *)
    (apply_syy_y "update_temp" (* 227 *)) ++
  [ IAdd "update" "update_temp" (* 229 *);
    IMv "update_temp" "Dzb" "Syz" (* 231 *) ] ++
  when (c_pml c) (* 232 *)
    (apply_syz_z "update_temp" (* 233 *)) ++
  [ IAdd "update" "update_temp" (* 235 *);
    IMulV "update" "inverseDensityAverageY" (* 237 *);
    IAdd "vY" "update" (* 238 *);
    IMv "update" "Dxb" "Sxz" (* 240 *) ] ++
  when (c_pml c) (* 241 *)
    (apply_sxz_x "update" (* 242 *)) ++
  (if (c_fs c =? 1)%Z (* 245 *)
   then [ IMv "update_temp" "DybFreeSurface" "Syz" (* 247 *) ]
   else [ IMv "update_temp" "Dyb" "Syz" (* 249 *) ]) ++
  when (c_pml c) (* 252 *)
    (apply_syz_y "update_temp" (* 253 *)) ++
  [ IAdd "update" "update_temp" (* 255 *);
    IMv "update_temp" "Dzf" "Szz" (* 257 *) ] ++
  when (c_pml c) (* 258 *)
    (apply_szz_z "update_temp" (* 259 *)) ++
  [ IAdd "update" "update_temp" (* 261 *);
    IMulV "update" "inverseDensityAverageZ" (* 263 *);
    IAdd "vZ" "update" (* 264 *);
    IMv "vxx" "Dxb" "vX" (* 270 *);
    IMv "vyy" "Dyb" "vY" (* 271 *);
    IMv "vzz" "Dzb" "vZ" (* 272 *) ] ++
  when (c_pml c) (* 273 *)
    (apply_vxx "vxx" (* 274 *) ++
     apply_vyy "vyy" (* 275 *) ++
     apply_vzz "vzz" (* 276 *)) ++
  [ ICp "update" "vxx" (* 279 *);
    IAdd "update" "vyy" (* 280 *);
    IAdd "update" "vzz" (* 281 *);
    IMulV "update" "pWaveModulus" (* 282 *) ] ++
  loop (c_L c) (fun l => (* 284 *)
     [ IScal "update2" (SN (N "inverseRelaxationTime" l)) "update" (* 285 *);
       IMulV "update2" "tauP" (* 286 *);
       IAddS "Sxx" (SN "DThalf") (N "Rxx" l) (* 288 *);
       IMulS (N "Rxx" l) (SN (N "viscoCoeff1" l)) (* 289 *);
       ISub (N "Rxx" l) "update2" (* 290 *);
       IAddS "Syy" (SN "DThalf") (N "Ryy" l) (* 292 *);
       IMulS (N "Ryy" l) (SN (N "viscoCoeff1" l)) (* 293 *);
       ISub (N "Ryy" l) "update2" (* 294 *);
       IAddS "Szz" (SN "DThalf") (N "Rzz" l) (* 296 *);
       IMulS (N "Rzz" l) (SN (N "viscoCoeff1" l)) (* 297 *);
       ISub (N "Rzz" l) "update2" (* 298 *) ]) ++
  [ IMulV "update" "onePlusLtauP" (* 301 *);
    IAdd "Sxx" "update" (* 302 *);
    IAdd "Syy" "update" (* 303 *);
    IAdd "Szz" "update" (* 304 *);
    ISum "update" "vyy" "vzz" (* 307 *);
    IMulV "update" "sWaveModulus" (* 308 *);
    IMulS "update" (SQ 2) (* 309 *) ] ++
  loop (c_L c) (fun l => (* 311 *)
     [ IScal "update2" (SN (N "inverseRelaxationTime" l)) "update" (* 312 *);
       IMulV "update2" "tauS" (* 313 *);
       IAdd (N "Rxx" l) "update2" (* 314 *);
       IMulS (N "Rxx" l) (SN (N "viscoCoeff2" l)) (* 316 *);
       IAddS "Sxx" (SN "DThalf") (N "Rxx" l) (* 317 *) ]) ++
  [ IMulV "update" "onePlusLtauS" (* 319 *);
    ISub "Sxx" "update" (* 320 *);
    ISum "update" "vxx" "vzz" (* 323 *);
    IMulV "update" "sWaveModulus" (* 324 *);
    IMulS "update" (SQ 2) (* 325 *) ] ++
  loop (c_L c) (fun l => (* 327 *)
     [ IScal "update2" (SN (N "inverseRelaxationTime" l)) "update" (* 328 *);
       IMulV "update2" "tauS" (* 329 *);
       IAdd (N "Ryy" l) "update2" (* 330 *);
       IMulS (N "Ryy" l) (SN (N "viscoCoeff2" l)) (* 332 *);
       IAddS "Syy" (SN "DThalf") (N "Ryy" l) (* 333 *) ]) ++
  [ IMulV "update" "onePlusLtauS" (* 335 *);
    ISub "Syy" "update" (* 336 *);
    ISum "update" "vxx" "vyy" (* 339 *);
    IMulV "update" "sWaveModulus" (* 340 *);
    IMulS "update" (SQ 2) (* 341 *) ] ++
  loop (c_L c) (fun l => (* 343 *)
     [ IScal "update2" (SN (N "inverseRelaxationTime" l)) "update" (* 344 *);
       IMulV "update2" "tauS" (* 345 *);
       IAdd (N "Rzz" l) "update2" (* 346 *);
       IMulS (N "Rzz" l) (SN (N "viscoCoeff2" l)) (* 348 *);
       IAddS "Szz" (SN "DThalf") (N "Rzz" l) (* 349 *) ]) ++
  [ IMulV "update" "onePlusLtauS" (* 351 *);
    ISub "Szz" "update" (* 352 *);
    IMv "update" "Dyf" "vX" (* 355 *) ] ++
  when (c_pml c) (* 356 *)
    (apply_vxy "update" (* 357 *)) ++
  [ IMv "update_temp" "Dxf" "vY" (* 359 *) ] ++
  when (c_pml c) (* 360 *)
    (apply_vyx "update_temp" (* 361 *)) ++
  [ IAdd "update" "update_temp" (* 363 *);
    IMulV "update" "sWaveModulusAverageXY" (* 365 *) ] ++
  loop (c_L c) (fun l => (* 367 *)
     [ IAddS "Sxy" (SN "DThalf") (N "Rxy" l) (* 368 *);
       IMulS (N "Rxy" l) (SN (N "viscoCoeff1" l)) (* 369 *);
       IScal "update2" (SN (N "inverseRelaxationTime" l)) "update" (* 371 *);
       IMulV "update2" "tauSAverageXY" (* 372 *);
       ISub (N "Rxy" l) "update2" (* 373 *);
       IMulS (N "Rxy" l) (SN (N "viscoCoeff2" l)) (* 375 *);
       IAddS "Sxy" (SN "DThalf") (N "Rxy" l) (* 376 *) ]) ++
  [ IMulV "update" "onePlusLtauS" (* 378 *);
    IAdd "Sxy" "update" (* 379 *);
    IMv "update" "Dzf" "vX" (* 382 *) ] ++
  when (c_pml c) (* 383 *)
    (apply_vxz "update" (* 384 *)) ++
  [ IMv "update_temp" "Dxf" "vZ" (* 387 *) ] ++
  when (c_pml c) (* 388 *)
    (apply_vzx "update_temp" (* 389 *)) ++
  [ IAdd "update" "update_temp" (* 391 *);
    IMulV "update" "sWaveModulusAverageXZ" (* 393 *) ] ++
  loop (c_L c) (fun l => (* 395 *)
     [ IAddS "Sxz" (SN "DThalf") (N "Rxz" l) (* 396 *);
       IMulS (N "Rxz" l) (SN (N "viscoCoeff1" l)) (* 397 *);
       IScal "update2" (SN (N "inverseRelaxationTime" l)) "update" (* 399 *);
       IMulV "update2" "tauSAverageXZ" (* 400 *);
       ISub (N "Rxz" l) "update2" (* 401 *);
       IMulS (N "Rxz" l) (SN (N "viscoCoeff2" l)) (* 403 *);
       IAddS "Sxz" (SN "DThalf") (N "Rxz" l) (* 404 *) ]) ++
  [ IMulV "update" "onePlusLtauS" (* 406 *);
    IAdd "Sxz" "update" (* 407 *);
    IMv "update" "Dzf" "vY" (* 410 *) ] ++
  when (c_pml c) (* 411 *)
    (apply_vyz "update" (* 412 *)) ++
  [ IMv "update_temp" "Dyf" "vZ" (* 415 *) ] ++
  when (c_pml c) (* 416 *)
    (apply_vzy "update_temp" (* 417 *)) ++
  [ IAdd "update" "update_temp" (* 419 *);
    IMulV "update" "sWaveModulusAverageYZ" (* 420 *) ] ++
  loop (c_L c) (fun l => (* 422 *)
     [ IAddS "Syz" (SN "DThalf") (N "Ryz" l) (* 423 *);
       IMulS (N "Ryz" l) (SN (N "viscoCoeff1" l)) (* 424 *);
       IScal "update2" (SN (N "inverseRelaxationTime" l)) "update" (* 426 *);
       IMulV "update2" "tauSAverageYZ" (* 427 *);
       ISub (N "Ryz" l) "update2" (* 428 *);
       IMulS (N "Ryz" l) (SN (N "viscoCoeff2" l)) (* 430 *);
       IAddS "Syz" (SN "DThalf") (N "Ryz" l) (* 431 *) ]) ++
  [ IMulV "update" "onePlusLtauS" (* 433 *);
    IAdd "Syz" "update" (* 434 *) ] ++
  when (c_fs c =? 1)%Z (* 437 *)
    ([ ISum "update" "vxx" "vzz" (* 438 *) ] ++
     exchange_3Dviscoelastic (c_L c) "update" "vyy" "Sxx" "Szz" "Rxx" "Rzz" (* 439 *) ++
     setSurfaceZero "Syy" (* 440 *) ++
     loop (c_L c) (fun l => (* 441 *)
        setSurfaceZero (N "Ryy" l) (* 442 *))) ++
  when (c_damp c) (* 447 *)
    (abs_apply ["Sxx"; "Syy"; "Szz"; "Sxy"; "Sxz"; "Syz"; "vX"; "vY"; "vZ"] (* 448 *)).

(** src/ForwardSolverEM/ForwardSolver2Demem.cpp run, lines 136-173. *)
Definition run_2Demem (c : cfg) : list instr :=
  [ IMv "update" "Dxf" "eY" (* 136 *);
    IMv "update_temp" "Dyf" "eX" (* 137 *) ] ++
  when (c_pml c) (* 138 *)
    (apply_eyx "update" (* 139 *) ++
     apply_exy "update_temp" (* 140 *)) ++
  [ ISub "update" "update_temp" (* 142 *);
    IMulV "update" "inverseMagneticPermeabilityAverageXY" (* 143 *);
    ISub "hZ" "update" (* 144 *);
    IMv "update" "DybStaggeredX" "hZ" (* 149 *) ] ++
  when (c_pml c) (* 150 *)
    (apply_hzy "update" (* 151 *)) ++
  [ IMulV "update" "CbAverageX" (* 153 *);
    ICoef "update_temp" "CaAverageX" "eX" (* 154 *);
    ISum "eX" "update_temp" "update" (* 155 *);
    IMv "update" "Dxb" "hZ" (* 160 *) ] ++
  when (c_pml c) (* 161 *)
    (apply_hzx "update" (* 162 *)) ++
  [ IMulV "update" "CbAverageY" (* 164 *);
    ICoef "update_temp" "CaAverageY" "eY" (* 165 *);
    IDif "eY" "update_temp" "update" (* 166 *) ] ++
  when (c_damp c) (* 169 *)
    (abs_apply ["eY"; "eX"; "hZ"] (* 170 *)).

(** src/ForwardSolverEM/ForwardSolver2Dtmem.cpp run, lines 131-168. *)
Definition run_2Dtmem (c : cfg) : list instr :=
  [ IMv "update" "Dyf" "eZ" (* 131 *) ] ++
  when (c_pml c) (* 132 *)
    (apply_ezy "update" (* 133 *)) ++
  [ IMulV "update" "inverseMagneticPermeabilityAverageYZ" (* 135 *);
    ISub "hX" "update" (* 136 *);
    IMv "update_temp" "Dxf" "eZ" (* 141 *) ] ++
  when (c_pml c) (* 142 *)
    (apply_ezx "update_temp" (* 143 *)) ++
  [ IScal "update" (SQ (-1)) "update_temp" (* 145 *);
    IMulV "update" "inverseMagneticPermeabilityAverageXZ" (* 146 *);
    ISub "hY" "update" (* 147 *);
    IMv "update" "Dxb" "hY" (* 152 *);
    IMv "update_temp" "Dyb" "hX" (* 153 *) ] ++
  when (c_pml c) (* 154 *)
    (apply_hyx "update" (* 155 *) ++
     apply_hxy "update_temp" (* 156 *)) ++
  [ ISub "update" "update_temp" (* 158 *);
    IMulV "update" "CbAverageZ" (* 159 *);
    ICoef "update_temp" "CaAverageZ" "eZ" (* 160 *);
    ISum "eZ" "update_temp" "update" (* 161 *) ] ++
  when (c_damp c) (* 164 *)
    (abs_apply ["eZ"; "hX"; "hY"] (* 165 *)).

(** src/ForwardSolverEM/ForwardSolver2Dviscoemem.cpp run, lines 168-225. *)
Definition run_2Dviscoemem (c : cfg) : list instr :=
  [ IMv "update" "Dxf" "eY" (* 168 *);
    IMv "update_temp" "Dyf" "eX" (* 169 *) ] ++
  when (c_pml c) (* 170 *)
    (apply_eyx "update" (* 171 *) ++
     apply_exy "update_temp" (* 172 *)) ++
  [ ISub "update" "update_temp" (* 174 *);
    IMulV "update" "inverseMagneticPermeabilityAverageXY" (* 175 *);
    ISub "hZ" "update" (* 176 *) ] ++
  loop (c_L c) (fun l => (* 181 *)
     [ IScal "update" (SN (N "Cc" l)) (N "rX" l) (* 182 *);
       ICoef "update_temp" (N "CdAverageX" l) "eX" (* 183 *);
       ISum (N "rX" l) "update_temp" "update" (* 184 *);
       IScal "update" (SN (N "Cc" l)) (N "rY" l) (* 186 *);
       ICoef "update_temp" (N "CdAverageY" l) "eY" (* 187 *);
       ISum (N "rY" l) "update_temp" "update" (* 188 *) ]) ++
  [ IMv "update" "DybStaggeredX" "hZ" (* 194 *) ] ++
  when (c_pml c) (* 195 *)
    (apply_hzy "update" (* 196 *)) ++
  loop (c_L c) (fun l => (* 198 *)
     [ ISubS "update" (SN "DT_temp") (N "rX" l) (* 199 *) ]) ++
  [ IMulV "update" "CbAverageX" (* 201 *);
    ICoef "update_temp" "CaAverageX" "eX" (* 202 *);
    ISum "eX" "update_temp" "update" (* 203 *);
    IMv "update_temp" "Dxb" "hZ" (* 208 *) ] ++
  when (c_pml c) (* 209 *)
    (apply_hzx "update_temp" (* 210 *)) ++
  [ IScal "update" (SQ (-1)) "update_temp" (* 212 *) ] ++
  loop (c_L c) (fun l => (* 213 *)
     [ ISubS "update" (SN "DT_temp") (N "rY" l) (* 214 *) ]) ++
  [ IMulV "update" "CbAverageY" (* 216 *);
    ICoef "update_temp" "CaAverageY" "eY" (* 217 *);
    ISum "eY" "update_temp" "update" (* 218 *) ] ++
  when (c_damp c) (* 221 *)
    (abs_apply ["eY"; "eX"; "hZ"] (* 222 *)).

(** src/ForwardSolverEM/ForwardSolver2Dviscotmem.cpp run, lines 155-204. *)
Definition run_2Dviscotmem (c : cfg) : list instr :=
  [ IMv "update" "Dyf" "eZ" (* 155 *) ] ++
  when (c_pml c) (* 156 *)
    (apply_ezy "update" (* 157 *)) ++
  [ IMulV "update" "inverseMagneticPermeabilityAverageYZ" (* 159 *);
    ISub "hX" "update" (* 160 *);
    IMv "update_temp" "Dxf" "eZ" (* 165 *) ] ++
  when (c_pml c) (* 166 *)
    (apply_ezx "update_temp" (* 167 *)) ++
  [ IScal "update" (SQ (-1)) "update_temp" (* 169 *);
    IMulV "update" "inverseMagneticPermeabilityAverageXZ" (* 170 *);
    ISub "hY" "update" (* 171 *) ] ++
  loop (c_L c) (fun l => (* 176 *)
     [ IScal "update" (SN (N "Cc" l)) (N "rZ" l) (* 177 *);
       ICoef "update_temp" (N "CdAverageZ" l) "eZ" (* 178 *);
       ISum (N "rZ" l) "update_temp" "update" (* 179 *) ]) ++
  [ IMv "update" "Dxb" "hY" (* 185 *);
    IMv "update_temp" "Dyb" "hX" (* 186 *) ] ++
  when (c_pml c) (* 187 *)
    (apply_hyx "update" (* 188 *) ++
     apply_hxy "update_temp" (* 189 *)) ++
  [ ISub "update" "update_temp" (* 191 *) ] ++
  loop (c_L c) (fun l => (* 192 *)
     [ ISubS "update" (SN "DT_temp") (N "rZ" l) (* 193 *) ]) ++
  [ IMulV "update" "CbAverageZ" (* 195 *);
    ICoef "update_temp" "CaAverageZ" "eZ" (* 196 *);
    ISum "eZ" "update_temp" "update" (* 197 *) ] ++
  when (c_damp c) (* 200 *)
    (abs_apply ["eZ"; "hX"; "hY"] (* 201 *)).

(** src/ForwardSolverEM/ForwardSolver3Demem.cpp run, lines 154-237. *)
Definition run_3Demem (c : cfg) : list instr :=
  [ IMv "update" "DyfStaggeredZ" "eZ" (* 154 *);
    IMv "update_temp" "Dzf" "eY" (* 155 *) ] ++
  when (c_pml c) (* 156 *)
    (apply_ezy "update" (* 157 *) ++
     apply_eyz "update_temp" (* 158 *)) ++
  [ ISub "update" "update_temp" (* 160 *);
    IMulV "update" "inverseMagneticPermeabilityAverageYZ" (* 161 *);
    ISub "hX" "update" (* 162 *);
    IMv "update" "Dzf" "eX" (* 167 *);
    IMv "update_temp" "Dxf" "eZ" (* 168 *) ] ++
  when (c_pml c) (* 169 *)
    (apply_exz "update" (* 170 *) ++
     apply_ezx "update_temp" (* 171 *)) ++
  [ ISub "update" "update_temp" (* 173 *);
    IMulV "update" "inverseMagneticPermeabilityAverageXZ" (* 174 *);
    ISub "hY" "update" (* 175 *);
    IMv "update" "Dxf" "eY" (* 180 *);
    IMv "update_temp" "DyfStaggeredX" "eX" (* 181 *) ] ++
  when (c_pml c) (* 182 *)
    (apply_eyx "update" (* 183 *) ++
     apply_exy "update_temp" (* 184 *)) ++
  [ ISub "update" "update_temp" (* 186 *);
    IMulV "update" "inverseMagneticPermeabilityAverageXY" (* 187 *);
    ISub "hZ" "update" (* 188 *);
    IMv "update" "DybStaggeredX" "hZ" (* 193 *);
    IMv "update_temp" "Dzb" "hY" (* 194 *) ] ++
  when (c_pml c) (* 195 *)
    (apply_hzy "update" (* 196 *) ++
     apply_hyz "update_temp" (* 197 *)) ++
  [ ISub "update" "update_temp" (* 199 *);
    IMulV "update" "CbAverageX" (* 200 *);
    ICoef "update_temp" "CaAverageX" "eX" (* 201 *);
    ISum "eX" "update_temp" "update" (* 202 *);
    IMv "update" "Dzb" "hX" (* 207 *);
    IMv "update_temp" "Dxb" "hZ" (* 208 *) ] ++
  when (c_pml c) (* 209 *)
    (apply_hxz "update" (* 210 *) ++
     apply_hzx "update_temp" (* 211 *)) ++
  [ ISub "update" "update_temp" (* 213 *);
    IMulV "update" "CbAverageY" (* 214 *);
    ICoef "update_temp" "CaAverageY" "eY" (* 215 *);
    ISum "eY" "update_temp" "update" (* 216 *);
    IMv "update" "Dxb" "hY" (* 221 *);
    IMv "update_temp" "DybStaggeredZ" "hX" (* 222 *) ] ++
  when (c_pml c) (* 223 *)
    (apply_hyx3D "update" (* 224 *) ++
     apply_hxy "update_temp" (* 225 *)) ++
  [ ISub "update" "update_temp" (* 227 *);
    IMulV "update" "CbAverageZ" (* 228 *);
    ICoef "update_temp" "CaAverageZ" "eZ" (* 229 *);
    ISum "eZ" "update_temp" "update" (* 230 *) ] ++
  when (c_damp c) (* 233 *)
    (abs_apply ["eZ"; "eY"; "eX"; "hX"; "hY"; "hZ"] (* 234 *)).

(** src/ForwardSolverEM/ForwardSolver3Dviscoemem.cpp run, lines 200-309. *)
Definition run_3Dviscoemem (c : cfg) : list instr :=
  [ IMv "update" "DyfStaggeredZ" "eZ" (* 200 *);
    IMv "update_temp" "Dzf" "eY" (* 201 *) ] ++
  when (c_pml c) (* 202 *)
    (apply_ezy "update" (* 203 *) ++
     apply_eyz "update_temp" (* 204 *)) ++
  [ ISub "update" "update_temp" (* 206 *);
    IMulV "update" "inverseMagneticPermeabilityAverageYZ" (* 207 *);
    ISub "hX" "update" (* 208 *);
    IMv "update" "Dzf" "eX" (* 213 *);
    IMv "update_temp" "Dxf" "eZ" (* 214 *) ] ++
  when (c_pml c) (* 215 *)
    (apply_exz "update" (* 216 *) ++
     apply_ezx "update_temp" (* 217 *)) ++
  [ ISub "update" "update_temp" (* 219 *);
    IMulV "update" "inverseMagneticPermeabilityAverageXZ" (* 220 *);
    ISub "hY" "update" (* 221 *);
    IMv "update" "Dxf" "eY" (* 226 *);
    IMv "update_temp" "DyfStaggeredX" "eX" (* 227 *) ] ++
  when (c_pml c) (* 228 *)
    (apply_eyx "update" (* 229 *) ++
     apply_exy "update_temp" (* 230 *)) ++
  [ ISub "update" "update_temp" (* 232 *);
    IMulV "update" "inverseMagneticPermeabilityAverageXY" (* 233 *);
    ISub "hZ" "update" (* 234 *) ] ++
  loop (c_L c) (fun l => (* 239 *)
     [ IScal "update" (SN (N "Cc" l)) (N "rX" l) (* 240 *);
       ICoef "update_temp" (N "CdAverageX" l) "eX" (* 241 *);
       ISum (N "rX" l) "update_temp" "update" (* 242 *);
       IScal "update" (SN (N "Cc" l)) (N "rY" l) (* 244 *);
       ICoef "update_temp" (N "CdAverageY" l) "eY" (* 245 *);
       ISum (N "rY" l) "update_temp" "update" (* 246 *);
       IScal "update" (SN (N "Cc" l)) (N "rZ" l) (* 248 *);
       ICoef "update_temp" (N "CdAverageZ" l) "eZ" (* 249 *);
       ISum (N "rZ" l) "update_temp" "update" (* 250 *) ]) ++
  [ IMv "update" "DybStaggeredX" "hZ" (* 256 *);
    IMv "update_temp" "Dzb" "hY" (* 257 *) ] ++
  when (c_pml c) (* 258 *)
    (apply_hzy "update" (* 259 *) ++
     apply_hyz "update_temp" (* 260 *)) ++
  [ ISub "update" "update_temp" (* 262 *) ] ++
  loop (c_L c) (fun l => (* 263 *)
     [ ISubS "update" (SN "DT_temp") (N "rX" l) (* 264 *) ]) ++
  [ IMulV "update" "CbAverageX" (* 266 *);
    ICoef "update_temp" "CaAverageX" "eX" (* 267 *);
    ISum "eX" "update_temp" "update" (* 268 *);
    IMv "update" "Dzb" "hX" (* 273 *);
    IMv "update_temp" "Dxb" "hZ" (* 274 *) ] ++
  when (c_pml c) (* 275 *)
    (apply_hxz "update" (* 276 *) ++
     apply_hzx "update_temp" (* 277 *)) ++
  [ ISub "update" "update_temp" (* 279 *) ] ++
  loop (c_L c) (fun l => (* 280 *)
     [ ISubS "update" (SN "DT_temp") (N "rY" l) (* 281 *) ]) ++
  [ IMulV "update" "CbAverageY" (* 283 *);
    ICoef "update_temp" "CaAverageY" "eY" (* 284 *);
    ISum "eY" "update_temp" "update" (* 285 *);
    IMv "update" "Dxb" "hY" (* 290 *);
    IMv "update_temp" "DybStaggeredZ" "hX" (* 291 *) ] ++
  when (c_pml c) (* 292 *)
    (apply_hyx3D "update" (* 293 *) ++
     apply_hxy "update_temp" (* 294 *)) ++
  [ ISub "update" "update_temp" (* 296 *) ] ++
  loop (c_L c) (fun l => (* 297 *)
     [ ISubS "update" (SN "DT_temp") (N "rZ" l) (* 298 *) ]) ++
  [ IMulV "update" "CbAverageZ" (* 300 *);
    ICoef "update_temp" "CaAverageZ" "eZ" (* 301 *);
    ISum "eZ" "update_temp" "update" (* 302 *) ] ++
  when (c_damp c) (* 305 *)
    (abs_apply ["eZ"; "eY"; "eX"; "hX"; "hY"; "hZ"] (* 306 *)).

(** ** Sources and receivers
    SourceReceiverImplSeismic.cpp applySource / gatherSeismogram (33-105, order P, VX, VY, VZ),
    SourceReceiverImplEM.cpp (34-116, order EZ, EX, EY, HZ); the single components use
    applySourceSingle / gatherSeismogramSingle on the wavefield of the same name. *)
Definition seismic_types : list stype := [TP; TVX; TVY; TVZ].
Definition em_types : list stype := [TEZ; TEX; TEY; THZ].

Definition one (n : nm) : option (list nm * option Q) := Some ([n], None).

(** FDTDacoustic.cpp: pressure sources into p; readings of p times 1 (line 22).
    FDTD2Dacoustic.hpp 28-29: VZ throws. *)
Definition inj_2Dacoustic (ty : stype) : option (list nm) :=
  match ty with TP => Some ["p" : nm] | TVX => Some ["vX" : nm] | TVY => Some ["vY" : nm] | _ => None end.
Definition out_2Dacoustic (ty : stype) : option (list nm * option Q) :=
  match ty with TP => Some (["p" : nm], Some 1%Q) | TVX => one "vX" | TVY => one "vY" | _ => None end.
Definition inj_3Dacoustic (ty : stype) : option (list nm) :=
  match ty with TVZ => Some ["vZ" : nm] | _ => inj_2Dacoustic ty end.
Definition out_3Dacoustic (ty : stype) : option (list nm * option Q) :=
  match ty with TVZ => one "vZ" | _ => out_2Dacoustic ty end.
(** FDTD2Delastic.cpp: pressure sources into Sxx and Syy (43-45), readings (Sxx + Syy) * 0.5 (22-25);
    FDTD2Delastic.hpp 32-33: VZ throws. *)
Definition inj_2Delastic (ty : stype) : option (list nm) :=
  match ty with TP => Some ["Sxx" : nm; "Syy" : nm] | TVX => Some ["vX" : nm] | TVY => Some ["vY" : nm] | _ => None end.
Definition out_2Delastic (ty : stype) : option (list nm * option Q) :=
  match ty with TP => Some (["Sxx" : nm; "Syy" : nm], Some (1 # 2)%Q) | TVX => one "vX" | TVY => one "vY" | _ => None end.
(** FDTD3Delastic.cpp: Sxx, Syy, Szz; readings sum / 3 (modelled as times 1/3). *)
Definition inj_3Delastic (ty : stype) : option (list nm) :=
  match ty with TP => Some ["Sxx" : nm; "Syy" : nm; "Szz" : nm] | TVX => Some ["vX" : nm] | TVY => Some ["vY" : nm]
  | TVZ => Some ["vZ" : nm] | _ => None end.
Definition out_3Delastic (ty : stype) : option (list nm * option Q) :=
  match ty with TP => Some (["Sxx" : nm; "Syy" : nm; "Szz" : nm], Some (1 # 3)%Q) | TVX => one "vX" | TVY => one "vY"
  | TVZ => one "vZ" | _ => None end.
(** FDTD2Dsh.hpp 29-34: P, VX, VY throw. *)
Definition inj_2Dsh (ty : stype) : option (list nm) := match ty with TVZ => Some ["vZ" : nm] | _ => None end.
Definition out_2Dsh (ty : stype) : option (list nm * option Q) := match ty with TVZ => one "vZ" | _ => None end.
(** FDTD2Demem.hpp 29-30: EZ throws.  FDTD2Dtmem.hpp 29-34: EX, EY, HZ throw.  FDTD3Demem.hpp: none throws. *)
Definition inj_2Demem (ty : stype) : option (list nm) :=
  match ty with TEX => Some ["eX" : nm] | TEY => Some ["eY" : nm] | THZ => Some ["hZ" : nm] | _ => None end.
Definition out_2Demem (ty : stype) : option (list nm * option Q) :=
  match ty with TEX => one "eX" | TEY => one "eY" | THZ => one "hZ" | _ => None end.
Definition inj_2Dtmem (ty : stype) : option (list nm) := match ty with TEZ => Some ["eZ" : nm] | _ => None end.
Definition out_2Dtmem (ty : stype) : option (list nm * option Q) := match ty with TEZ => one "eZ" | _ => None end.
Definition inj_3Demem (ty : stype) : option (list nm) :=
  match ty with TEZ => Some ["eZ" : nm] | _ => inj_2Demem ty end.
Definition out_3Demem (ty : stype) : option (list nm * option Q) :=
  match ty with TEZ => one "eZ" | _ => out_2Demem ty end.

(** ** resetWavefields and resetCPML *)
Definition nms (l : list string) : list nm := map nm_s l.
(** one vector per relaxation mechanism for every name *)
Definition relax (l : list string) (L : nat) : list nm :=
  flat_map (fun k => map (fun s => N s k) l) (seq 0 L).

(** CPML2DAcoustic.cpp resetCPML 6-13, CPML3DAcoustic.cpp 6-15, CPML2D.cpp 6-21, CPML3D.cpp 6-27,
    CPMLEM2D.cpp 6-17, CPMLEM3D.cpp 6-21. *)
Definition psi_2Dacoustic := nms ["psi_vxx"; "psi_vyy"; "psi_p_x"; "psi_p_y"].
Definition psi_3Dacoustic := nms ["psi_vxx"; "psi_vyy"; "psi_vzz"; "psi_p_x"; "psi_p_y"; "psi_p_z"].
Definition psi_2D := nms ["psi_vxx"; "psi_vyx"; "psi_vzx"; "psi_vxy"; "psi_vyy"; "psi_vzy";
  "psi_sxx_x"; "psi_sxy_x"; "psi_sxz_x"; "psi_sxy_y"; "psi_syy_y"; "psi_syz_y"].
Definition psi_3D := nms ["psi_vxx"; "psi_vyx"; "psi_vzx"; "psi_vxy"; "psi_vyy"; "psi_vzy"; "psi_vxz"; "psi_vyz"; "psi_vzz";
  "psi_sxx_x"; "psi_sxy_x"; "psi_sxz_x"; "psi_sxy_y"; "psi_syy_y"; "psi_syz_y"; "psi_sxz_z"; "psi_syz_z"; "psi_szz_z"].
Definition psi_2DEM := nms ["psi_hyx"; "psi_hzx"; "psi_hxy"; "psi_hzy"; "psi_eyx"; "psi_ezx"; "psi_exy"; "psi_ezy"].
Definition psi_3DEM := nms ["psi_hyx"; "psi_hzx"; "psi_hxy"; "psi_hzy"; "psi_hxz"; "psi_hyz";
  "psi_eyx"; "psi_ezx"; "psi_exy"; "psi_ezy"; "psi_eyz"; "psi_exz"].

(** The field lists are the vectors reset by resetWavefields (src/Wavefields/Wavefields2Dacoustic.cpp 255-260,
    2Delastic 104-111, 2Dsh 90-95, 2Dviscoelastic 121-134, 2Dviscosh 104-114, 3Dacoustic 92-98, 3Delastic 111-122,
    3Dviscoelastic 137-156; src/WavefieldsEM/Wavefields2Demem.cpp 87-92, 2Dtmem 166-171, 2Dviscoemem 101-111,
    2Dviscotmem 108-117, 3Demem 101-109, 3Dviscoemem 119-133). *)
Definition FD2Dacoustic : solver := Solver run_2Dacoustic seismic_types inj_2Dacoustic out_2Dacoustic
  (fun _ => nms ["vX"; "vY"; "p"]) psi_2Dacoustic.
Definition FD3Dacoustic : solver := Solver run_3Dacoustic seismic_types inj_3Dacoustic out_3Dacoustic
  (fun _ => nms ["vX"; "vY"; "vZ"; "p"]) psi_3Dacoustic.
Definition FD2Delastic : solver := Solver run_2Delastic seismic_types inj_2Delastic out_2Delastic
  (fun _ => nms ["vX"; "vY"; "Sxx"; "Syy"; "Sxy"]) psi_2D.
Definition FD3Delastic : solver := Solver run_3Delastic seismic_types inj_3Delastic out_3Delastic
  (fun _ => nms ["vX"; "vY"; "vZ"; "Sxx"; "Syy"; "Szz"; "Syz"; "Sxz"; "Sxy"]) psi_3D.
Definition FD2Dviscoelastic : solver := Solver run_2Dviscoelastic seismic_types inj_2Delastic out_2Delastic
  (fun c => nms ["vX"; "vY"; "Sxx"; "Syy"; "Sxy"] ++ relax ["Rxx"; "Ryy"; "Rxy"] (c_L c)) psi_2D.
Definition FD3Dviscoelastic : solver := Solver run_3Dviscoelastic seismic_types inj_3Delastic out_3Delastic
  (fun c => nms ["vX"; "vY"; "vZ"; "Sxx"; "Syy"; "Szz"; "Syz"; "Sxz"; "Sxy"] ++
            relax ["Rxx"; "Ryy"; "Rzz"; "Ryz"; "Rxz"; "Rxy"] (c_L c)) psi_3D.
Definition FD2Dsh : solver := Solver run_2Dsh seismic_types inj_2Dsh out_2Dsh
  (fun _ => nms ["vZ"; "Sxz"; "Syz"]) psi_2D.
Definition FD2Dviscosh : solver := Solver run_2Dviscosh seismic_types inj_2Dsh out_2Dsh
  (fun c => nms ["vZ"; "Sxz"; "Syz"] ++ relax ["Rxz"; "Ryz"] (c_L c)) psi_2D.
Definition FD2Demem : solver := Solver run_2Demem em_types inj_2Demem out_2Demem
  (fun _ => nms ["hZ"; "eX"; "eY"]) psi_2DEM.
Definition FD2Dtmem : solver := Solver run_2Dtmem em_types inj_2Dtmem out_2Dtmem
  (fun _ => nms ["hX"; "hY"; "eZ"]) psi_2DEM.
Definition FD2Dviscoemem : solver := Solver run_2Dviscoemem em_types inj_2Demem out_2Demem
  (fun c => nms ["hZ"; "eX"; "eY"] ++ relax ["rX"; "rY"] (c_L c)) psi_2DEM.
Definition FD2Dviscotmem : solver := Solver run_2Dviscotmem em_types inj_2Dtmem out_2Dtmem
  (fun c => nms ["hX"; "hY"; "eZ"] ++ relax ["rZ"] (c_L c)) psi_2DEM.
Definition FD3Demem : solver := Solver run_3Demem em_types inj_3Demem out_3Demem
  (fun _ => nms ["hX"; "hY"; "hZ"; "eX"; "eY"; "eZ"]) psi_3DEM.
Definition FD3Dviscoemem : solver := Solver run_3Dviscoemem em_types inj_3Demem out_3Demem
  (fun c => nms ["hX"; "hY"; "hZ"; "eX"; "eY"; "eZ"] ++ relax ["rX"; "rY"; "rZ"] (c_L c)) psi_3DEM.

(** src/ForwardSolver/ForwardSolverFactory.cpp 4-66: the solvers that can be created. *)
Definition all_solvers : list solver :=
  [ FD2Dacoustic; FD2Delastic; FD2Dviscoelastic; FD2Dsh; FD2Dviscosh; FD3Dacoustic; FD3Delastic; FD3Dviscoelastic;
    FD2Demem; FD2Dtmem; FD2Dviscoemem; FD2Dviscotmem; FD3Demem; FD3Dviscoemem ].
