-Q theories Verif
theories/Base.v
theories/Lib.v
theories/Model_Angles.v
theories/Proof_Angles.v
theories/Spec_Angles.v
theories/Proof_AnglesProps.v
theories/Model_Ideal.v
theories/Model_MatMul.v
theories/Spec_Matrix.v
theories/Proof_Ideal.v
theories/Proof_IdealProps.v
theories/Proof_Summary.v
theories/Prop_Angles.v
theories/Prop_Ideal.v
theories/Spec_MatMul.v
theories/Proof_MatMul.v
theories/Proof_OutIn.v
theories/Proof_OutInProps.v
theories/Proof_RAT.v
theories/Proof_RAT2.v
theories/Proof_RAT3.v
theories/Proof_Profile.v
theories/Prop_MatMul.v
theories/Model_Cache.v
theories/Spec_Cache.v
theories/Proof_Cache.v
theories/Proof_Cache2.v
theories/Prop_Cache.v
theories/Model_Optics.v
theories/Spec_Optics.v
theories/Proof_Optics.v
theories/Proof_Geom.v
theories/Proof_OpticsProps.v
theories/Model_OpticsC.v
theories/Spec_OpticsC.v
theories/Proof_OpticsC.v
theories/Proof_OpticsC2.v
theories/Proof_OpticsEx.v
theories/Prop_Optics.v
theories/Model_RayIface.v
theories/Proof_OpticsC3.v
theories/Prop_OpticsC.v
theories/Spec_RayIface.v
theories/Proof_RayIface.v
theories/Proof_RayLaps.v
theories/Proof_RayIface2.v
theories/Prop_RayIface.v
theories/Model_RayStack.v
theories/Spec_RayStack.v
theories/Proof_RayStack.v
theories/Proof_RayEnergy.v
theories/Proof_RayProfile.v
theories/Proof_RayProfile2.v
theories/Proof_RayStackEx.v
theories/Proof_RayStackProps.v
theories/Prop_RayStack.v
theories/Spec_Series.v
theories/Proof_Series.v
theories/Prop_Series.v
theories/Model_RT.v
theories/Spec_RT.v
theories/Proof_RT.v
theories/Proof_RT2.v
theories/Prop_RT.v
theories/Model_Surface.v
theories/Spec_Surface.v
theories/Proof_Surface.v
theories/Proof_Surface2.v
theories/Proof_Surface3.v
theories/Proof_Surface4.v
theories/Prop_Surface.v
theories/Model_TMM.v
theories/Spec_TMM.v
theories/Proof_TMM.v
theories/Proof_TMM2.v
theories/Proof_TMM3.v
theories/Proof_TMM4.v
theories/Prop_TMM.v
theories/Model_Diff.v
theories/Spec_Diff.v
theories/Proof_Diff.v
theories/Prop_Diff.v
theories/Model_RCWA.v
theories/Spec_RCWA.v
theories/Proof_RCWA.v
theories/Proof_RCWA2.v
theories/Proof_RCWA3.v
theories/Prop_RCWA.v
theories/Model_RCWAObj.v
theories/Spec_RCWAObj.v
theories/Proof_RCWAObj.v
theories/Proof_RCWAObj2.v
theories/Proof_RCWAObj3.v
theories/Proof_RCWAObj4.v
theories/Proof_RCWAObj5.v
theories/Proof_RCWAObj6.v
theories/Proof_RCWAObj7.v
theories/Proof_RCWAOrd.v
theories/Prop_RCWAObj.v
theories/Model_Structure.v
theories/Spec_Structure.v
theories/Proof_Structure.v
theories/Prop_Structure.v
theories/Model_Absorb.v
theories/Model_RTProfile.v
theories/Spec_Absorb.v
theories/Spec_RTProfile.v
theories/Proof_Absorb.v
theories/Proof_Absorb2.v
theories/Proof_Absorb3.v
theories/Proof_Absorb4.v
theories/Proof_Absorb5.v
theories/Proof_RTProfile.v
theories/Proof_Absorb6.v
theories/Prop_Absorb.v
theories/Prop_RTProfile.v
theories/Model_RTStruct.v
theories/Spec_RTStruct.v
theories/Proof_RTStruct.v
theories/Proof_RTStruct2.v
theories/Proof_RTStruct3.v
theories/Proof_RTStruct4.v
theories/Prop_RTStruct.v
theories/Model_Process.v
theories/Spec_Process.v
theories/Proof_Process.v
theories/Proof_Process2.v
theories/Proof_Process3.v
theories/Proof_Process4.v
theories/Prop_Process.v
theories/Model_Slab.v
theories/Spec_Slab.v
theories/Proof_Slab.v
theories/Proof_Slab2.v
theories/Proof_Slab3.v
theories/Prop_Slab.v
theories/Model_Trace.v
theories/Spec_Trace.v
theories/Proof_Trace.v
theories/Proof_Trace2.v
theories/Proof_Trace3.v
theories/Proof_Trace4.v
theories/Prop_Trace.v
theories/Model_Hyper.v
theories/Spec_Hyper.v
theories/Proof_Hyper.v
theories/Proof_Hyper2.v
theories/Proof_Hyper3.v
theories/Proof_HyperNum.v
theories/Proof_Hyper4.v
theories/Proof_Hyper5.v
theories/Proof_Hyper6.v
theories/Prop_Hyper.v
theories/Prop_RCWAOrd.v
theories/Model_StackRay.v
theories/Spec_StackRay.v
theories/Model_StackCalc.v
theories/Spec_StackCalc.v
theories/Spec_Mean.v
theories/Spec_Chance.v
theories/Proof_StackRay.v
theories/Proof_StackFlat.v
theories/Proof_StackPlanar.v
theories/Proof_StackCalc.v
theories/Proof_StackCalc2.v
theories/Proof_StackCalc3.v
theories/Proof_StackCalc4.v
theories/Prop_StackRay.v
theories/Prop_StackCalc.v
theories/Spec_RCWAEdit.v
theories/Proof_RCWAEdit.v
theories/Prop_RCWAEdit.v
theories/Proof_Mean.v
theories/Proof_Trees.v
theories/Proof_TreeRay.v
theories/Proof_MeanRay.v
theories/Proof_MeanCalc.v
theories/Proof_MeanSlab.v
theories/Proof_MeanExist.v
theories/Prop_Mean.v
theories/Proof_Chance.v
theories/Prop_Chance.v
theories/Model_RTCalc.v
theories/Spec_RTCalc.v
theories/Proof_RTRows.v
theories/Proof_RTCalc.v
theories/Proof_RTFlat.v
theories/Prop_RTCalc.v
theories/Proof_RTChance.v
theories/Proof_RTFlat2.v
theories/Prop_RTChance.v
theories/Model_RTSlab.v
theories/Spec_RTSlab.v
theories/Proof_RTSlab.v
theories/Prop_RTSlab.v
theories/Spec_More.v
theories/Proof_More.v
theories/Prop_More.v
theories/Model_Bulks.v
theories/Spec_Bulks.v
theories/Proof_Bulks.v
theories/Prop_Bulks.v
theories/Spec_Shallow.v
theories/Proof_Shallow.v
theories/Proof_Pyramid.v
theories/Proof_Leak.v
theories/Prop_Shallow.v
theories/Proof_Steep.v
theories/Prop_Steep.v
theories/Prop_ShallowC.v
theories/Proof_Inverted.v
theories/Prop_Inverted.v
theories/Spec_Cell.v
theories/Proof_Cell.v
theories/Prop_Cell.v
theories/Proof_Lone.v
theories/Prop_Lone.v
theories/Spec_Place.v
theories/Proof_Place.v
theories/Prop_Place.v
theories/Prop_Randomize.v
theories/Prop_Shift.v
