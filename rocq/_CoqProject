-Q theories Verif

theories/PyBase.v
theories/M_Data.v
theories/S_Data.v
theories/P_Dict.v
theories/P_Data.v
theories/P_Append.v
theories/Props_Data.v
theories/M_Pack.v
theories/S_Pack.v
theories/P_Pack.v
theories/Props_Pack.v
theories/M_Ordered.v
theories/S_Ordered.v
theories/P_Ordered.v
theories/Props_Ordered.v
theories/M_Diffed.v
theories/S_Diffed.v
theories/P_Diffed.v
theories/Props_Diffed.v
theories/M_Merge.v
theories/S_Merge.v
theories/P_Merge.v
theories/Props_Merge.v
theories/M_Rows.v
theories/S_Rows.v
theories/P_Rows.v
theories/Props_Rows.v
theories/M_Process.v
theories/S_Process.v
theories/P_Process.v
theories/Props_Process.v
theories/M_SetValues.v
theories/S_SetValues.v
theories/P_SetValues.v
theories/M_Opt.v
theories/S_Opt.v
theories/P_Opt.v
theories/Props_SetValues.v
theories/Props_Opt.v
theories/M_Swarm.v
theories/S_Swarm.v
theories/P_Swarm.v
theories/Props_Swarm.v
theories/M_TRMM.v
theories/P_TRMM.v
theories/Props_TRMM.v
theories/M_Rot.v
theories/S_Rot.v
theories/P_Rot.v
theories/Props_Rot.v
theories/M_Mission.v
theories/M_Segments.v
theories/S_Mission.v
theories/P_Mission.v
theories/P_Frames.v
theories/Props_Frames.v
theories/Props_Mission.v
theories/S_Segments.v
theories/P_Segments.v
theories/Props_Segments.v
theories/M_Cheb.v
theories/S_Cheb.v
theories/P_Cheb.v
theories/Props_Cheb.v
theories/M_Wing.v
theories/S_Wing.v
theories/P_Wing.v
theories/Props_Wing.v
theories/M_Mass.v
theories/S_Mass.v
theories/P_Mass.v
theories/Props_Mass.v
theories/M_Atmo.v
theories/S_Atmo.v
theories/P_Atmo.v
theories/Props_Atmo.v
theories/M_Util.v
theories/S_Util.v
theories/P_Util.v
theories/Props_Util.v
theories/M_Batt.v
theories/S_Batt.v
theories/P_Batt.v
theories/Props_Batt.v
theories/M_Noise.v
theories/S_Noise.v
theories/P_Noise.v
theories/Props_Noise.v
theories/M_Archive.v
theories/S_Archive.v
theories/P_Archive.v
theories/Props_Archive.v
theories/M_Engine.v
theories/S_Engine.v
theories/P_Engine.v
theories/P_Shock.v
theories/Props_Engine.v
theories/Props_Shock.v
theories/Props_Nets.v
theories/M_Drag.v
theories/S_Drag.v
theories/P_Drag.v
theories/P_Drag2.v
theories/P_Deriv.v
theories/P_Friction.v
theories/P_Form.v
theories/P_Drag3.v
theories/Props_Drag.v
theories/M_Vn.v
theories/S_Vn.v
theories/P_Vn.v
theories/P_Vn2.v
theories/P_Vn3.v
theories/Props_Vn.v
theories/M_Field.v
theories/S_Field.v
theories/P_Field.v
theories/P_Field2.v
theories/Props_Field.v
theories/M_Stab.v
theories/S_Stab.v
theories/P_Stab.v
theories/Props_Stab.v
theories/M_Modes.v
theories/S_Modes.v
theories/P_Modes.v
theories/Props_Modes.v
theories/M_Elec.v
theories/S_Elec.v
theories/P_Elec.v
theories/Props_Elec.v
theories/M_Weight.v
theories/S_Weight.v
theories/P_Weight.v
theories/P_Spar.v
theories/Props_Weight.v
theories/Props_Spar.v
theories/Props_GA.v
theories/M_Evtol.v
theories/S_Evtol.v
theories/P_Evtol.v
theories/P_Evtol2.v
theories/Props_Evtol.v
theories/M_Rotor.v
theories/S_Rotor.v
theories/P_Rotor.v
theories/P_Rotor2.v
theories/P_Rotor3.v
theories/Props_Rotor.v
theories/M_Vlm.v
theories/S_Vlm.v
theories/P_Vlm.v
theories/P_Vlm2.v
theories/P_Vlm3.v
theories/P_Vlm4.v
theories/Props_Vlm.v
theories/M_Grid.v
theories/S_Grid.v
theories/P_Grid.v
theories/P_Grid2.v
theories/P_Grid3.v
theories/P_Grid4.v
theories/Props_Grid.v
theories/M_Cuts.v
theories/S_Cuts.v
theories/P_Cuts.v
theories/P_Cuts2.v
theories/P_Cuts3.v
theories/P_Cuts4.v
theories/Props_Cuts.v
theories/M_Super.v
theories/S_Super.v
theories/P_Super.v
theories/Props_Super.v
theories/M_Aerodas.v
theories/S_Aerodas.v
theories/P_Aerodas.v
theories/Props_Aerodas.v
theories/M_Costs.v
theories/S_Costs.v
theories/P_Costs.v
theories/Props_Costs.v
theories/M_Units.v
theories/S_Units.v
theories/P_Units.v
theories/P_Units2.v
theories/P_Units3.v
theories/P_Units4.v
theories/Props_Units.v
theories/M_Pint.v
theories/S_Pint.v
theories/P_Pint.v
theories/P_Pint2.v
theories/P_Pint3.v
theories/Props_Pint.v
theories/M_Rocket.v
theories/S_Rocket.v
theories/P_Rocket.v
theories/P_Rocket2.v
theories/P_Rocket3.v
theories/P_Rocket4.v
theories/Props_Rocket.v
theories/Props_Rocket2.v
theories/M_Seg2.v
theories/S_Seg2.v
theories/Props_Seg2.v
theories/Props_Seg3.v
theories/M_Line.v
theories/S_Line.v
theories/P_Line.v
theories/Props_Line.v
theories/Props_Line2.v
theories/Props_Line3.v
theories/M_Geo2.v
theories/S_Geo2.v
theories/P_Geo2.v
theories/Props_Geo2.v
theories/Props_Geo3.v
theories/M_Sweep.v
theories/S_Sweep.v
theories/P_Sweep.v
theories/Props_Sweep.v
theories/M_Tree.v
theories/S_Tree.v
theories/P_Tree.v
theories/Props_Tree.v
theories/M_Cryo.v
theories/S_Cryo.v
theories/P_Cryo.v
theories/Props_Cryo.v
theories/M_Panel.v
theories/S_Panel.v
theories/P_Panel.v
theories/Props_Panel.v
theories/M_Efan.v
theories/S_Efan.v
theories/Props_Efan.v
theories/M_Afile.v
theories/S_Afile.v
theories/P_Afile.v
theories/Props_Afile.v
theories/M_Solv.v
theories/Props_Solv.v
theories/M_Perf.v
theories/Props_Perf.v
theories/M_Deck.v
theories/Props_Deck.v
theories/M_Avl.v
theories/Props_Avl.v
theories/M_Jet.v
theories/Props_Jet.v
theories/M_Deriv.v
theories/Props_Deriv.v
theories/M_Wdrag.v
theories/Props_Wdrag.v
theories/M_Vdpart.v
theories/Props_Vdpart.v
theories/M_Mesh2.v
theories/Props_Mesh2.v
theories/M_Run3.v
theories/Props_Run3.v
theories/M_Grid3.v
theories/Props_Grid3.v
theories/M_Cert.v
theories/Props_Cert.v
theories/M_Xtra.v
theories/Props_Xtra.v
