-Q theories Verif
theories/FwModel.v
theories/FwSpec.v
theories/FwDebounce.v
theories/FwHid.v
theories/FwMatrix.v
theories/FwEncoder.v
theories/FwLed.v
theories/FwMain.v
theories/FwMore.v
theories/P_Firmware.v
theories/Num.v
theories/GeoModel.v
theories/GeoSpec.v
theories/GeoMat.v
theories/GeoRigid.v
theories/GeoPlane.v
theories/GeoFig.v
theories/GeoCirc.v
theories/GeoTri.v
theories/GeoIso.v
theories/P_Geo.v
theories/EdgeModel.v
theories/EdgeSpec.v
theories/EdgeMesh.v
theories/EdgeSpecR.v
theories/EdgeContains.v
theories/EdgeHull.v
theories/EdgeHull2.v
theories/EdgeReal.v
theories/Toy.v
theories/P_Edge.v
theories/FaceModel.v
theories/FaceSpec.v
theories/FaceComb.v
theories/FaceCut.v
theories/FaceHole.v
theories/FaceFlip.v
theories/FaceSpecR.v
theories/FaceCover.v
theories/FaceFlipR.v
theories/FaceDelaunay.v
theories/FaceHoleR.v
theories/FaceEar.v
theories/FaceAll.v
theories/FaceSum.v
theories/P_Face.v
theories/NormSpec.v
theories/GeoNormal.v
theories/FaceNormal.v
theories/MeshReal.v
theories/P_Normal.v
theories/StlModel.v
theories/StlProof.v
theories/P_Stl.v
theories/BridgeSpec.v
theories/FaceBridge.v
theories/P_Bridge.v
theories/CfgModel.v
theories/CfgSpec.v
theories/CfgProof.v
theories/P_Cfg.v
theories/MakeModel.v
theories/MakeProof.v
theories/P_Make.v
theories/MainModel.v
theories/MainSpec.v
theories/MainProof.v
theories/P_Main.v
theories/PrettyModel.v
theories/PrettySpec.v
theories/PrettyProof.v
theories/P_Pretty.v
theories/SeamModel.v
theories/SeamSpec.v
theories/SeamProof.v
theories/P_Seam.v
theories/ArcModel.v
theories/ArcSpec.v
theories/ArcProof.v
theories/ArcCorner.v
theories/P_Arc.v
theories/Calc.v
theories/MeshModel.v
theories/MeshSpec.v
theories/MeshProof.v
theories/MeshCheck.v
theories/MeshFace.v
theories/StripReal.v
theories/SupportModel.v
theories/KnobModel.v
theories/SolidProof.v
theories/SupportReal.v
theories/P_Solid.v
theories/KeyModel.v
theories/LayoutModel.v
theories/LayoutSpec.v
theories/LayoutProof.v
theories/P_Layout.v
theories/BossModel.v
theories/PlanModel.v
theories/HullSpec.v
theories/HullDist.v
theories/PlanSpec.v
theories/WallProof.v
theories/BossFit.v
theories/BossFit2.v
theories/BossKeys.v
theories/PlanMove.v
theories/PlanTent.v
theories/PlanWalls.v
theories/PlanFinal.v
theories/PlanPath.v
theories/PlanSym.v
theories/P_Plan.v
theories/BracketModel.v
theories/BumperModel.v
theories/PlanSpec2.v
theories/PlanAngle.v
theories/PlanRidge.v
theories/P_Plan2.v
theories/PartSpec.v
theories/ChainProof.v
theories/PartProof.v
theories/PalmModel.v
theories/PalmProof.v
theories/BossTip.v
theories/P_Palm.v
theories/BodyModel.v
theories/FloorModel.v
theories/FloorSpec.v
theories/FloorClosed.v
theories/EdgePath.v
theories/P_Floor.v
theories/BodyChain.v
theories/BodyKeys.v
theories/BodyParts.v
theories/BodyFlat.v
theories/BodyReal.v
theories/BodyHole.v
theories/BodyCable.v
theories/BodyRidge.v
theories/BodyMade.v
theories/BodyShell.v
theories/BodyClosed.v
theories/P_Body.v
theories/HexGrid.v
theories/HexRound.v
theories/HexEnd.v
theories/HexIn.v
theories/HexIn2.v
theories/HexIn3.v
theories/HexPlace.v
theories/P_Hex.v
theories/PcbModel.v
theories/PcbSpec.v
theories/PcbProof.v
theories/PcbMore.v
theories/SexpSpec.v
theories/PcbText.v
theories/P_Pcb.v
theories/FwPins.v
theories/FwPinsProof.v
theories/P_Pins.v
theories/PolyEv.v
theories/PolyCross.v
theories/PolySides.v
theories/PolyWind.v
theories/PolyJordan.v
theories/PolyInside.v
theories/PolySplit.v
theories/PolyDiag.v
theories/PolyEars.v
theories/PolyPlain.v
theories/PolyCut.v
theories/PolySpec.v
theories/PolyFace.v
theories/P_Ears.v
theories/OffSpec.v
theories/OffProof.v
theories/OffExact.v
theories/OffCut.v
theories/OffLoop.v
theories/OffAll.v
theories/P_Offset.v
theories/BumpSpec.v
theories/BumpProof.v
theories/ArcShape.v
theories/P_Bumper.v
theories/BossSpec.v
theories/BossProof.v
theories/P_Boss.v
theories/BrSpec.v
theories/BrProof.v
theories/P_Bracket.v
theories/SwitchSpec.v
theories/SwitchProof.v
theories/P_Switch.v
theories/CableProof.v
theories/P_Cable.v
theories/EncProof.v
theories/P_Encoder.v
theories/P_Runs.v
theories/KnobSpec.v
theories/KnobGroove.v
theories/KnobTurn.v
theories/KnobOutline.v
theories/KnobShaft.v
theories/KnobDrawn.v
theories/P_Knob.v
theories/PalmSpec.v
theories/PalmShape.v
theories/PalmBox.v
theories/PalmNotch.v
theories/PalmGroove.v
theories/PalmAll.v
theories/HitchArc.v
theories/P_PalmShape.v
theories/ChamSpec.v
theories/ChamProof.v
theories/P_Chamfer.v
theories/RoundProof.v
theories/P_Round.v
theories/P_Guard.v
theories/FlatSpec.v
theories/FlatProof.v
theories/FlatRoof.v
theories/FlatPlates.v
theories/FlatEdges.v
theories/FlatBody.v
theories/P_Flat.v
theories/FlatRest.v
theories/P_FlatRest.v
theories/FlatFloor.v
theories/P_FlatFloor.v
