-Q theories Verif
theories/Arith.v
theories/Types.v
theories/Params.v
theories/Utils.v
theories/Wobble.v
theories/Position.v
theories/Loop.v
theories/Stylus.v
theories/Kalman.v
theories/Modeler.v
theories/Ieee.v
theories/RealA.v
theories/Fidelity.v
theories/Spec.v
theories/Struct.v
theories/Inv.v
theories/Sim.v
theories/Hist.v
theories/Props_API.v
theories/Cons.v
theories/Props_Count.v
theories/Props_Params.v
theories/Props_Geom.v
theories/Stroke.v
theories/Props_Kalman.v
theories/FloatFacts.v
theories/Flt.v
theories/FltAngle.v
theories/Props_Stylus.v
theories/Made.v
theories/Props_Range.v
theories/RFacts.v
theories/Props_Time.v
theories/Props_Spring.v
theories/Props_End.v
theories/NoUB.v
theories/Props_Safe.v
theories/Props_Total.v
theories/Memory.v
theories/Props_Smooth.v
theories/Props_Proj.v
theories/Props_Normal.v
theories/Calm.v
theories/Props_Loop.v
theories/Props_Predict.v
theories/Props_Whole.v
theories/Props_Rest.v
theories/Props_Valid.v
theories/Props_Float.v
theories/Props_FTime.v
theories/Symmetry.v
theories/Props_FRest.v
theories/Props_Offer.v
theories/Stable.v
theories/Filter.v
theories/Props_Finite.v
theories/Props_FRate.v
theories/Props_Bounded.v
theories/Props_FAccept.v
theories/Noise.v
theories/Props_FKalman.v
theories/Props_FPred.v
theories/Props_FBounded.v
theories/Props_Vec.v
theories/Props_FAny.v
theories/Mirror.v
theories/Mirrored.v
theories/Props_Mirror.v
theories/Props_FLift.v
theories/Props_KCount.v
theories/Props_FSpring.v
theories/Props_FEnd.v
theories/Props_FProj.v
theories/Props_FCount.v
theories/Props_FKRest.v
theories/Props_FCarry.v
theories/Quiet.v
theories/Limits.v
theories/Longer.v
theories/Unpredicted.v
theories/Channels.v
theories/Unknowns.v
theories/Props_FLoop.v
theories/Demo.v
theories/Examples_API.v
theories/Examples_A.v
theories/Examples_F.v
theories/Examples_R.v
theories/Examples_V.v
theories/Examples_T.v
theories/Examples_S.v
theories/Examples_N.v
theories/Examples_I.v
theories/Examples_P.v
theories/Examples_W.v
theories/Examples_Q.v
theories/Examples_X.v
theories/Examples_K.v
theories/Examples_J.v
theories/Examples_B.v
theories/Examples_L.v
theories/Examples_Y.v
theories/Examples_M.v
theories/Examples_D.v
theories/Examples_G.v
theories/Examples_H.v
theories/Examples_U.v
theories/Examples_C.v
theories/Examples_E.v
theories/Examples_O.v
theories/Examples_Z.v
