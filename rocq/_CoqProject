-Q theories Verif
theories/Base.v
theories/P_Base.v
theories/M_Index.v
theories/P_Index.v
theories/M_Conn.v
theories/S_Conn.v
theories/P_Conn.v
theories/T_Index.v
theories/T_Conn.v
theories/M_Mesh.v
theories/M_Apply.v
theories/S_Mesh.v
theories/P_Apply.v
theories/Ex_Mesh.v
theories/T_Apply.v
theories/S_Boundary.v
theories/P_Boundary.v
theories/T_Mesh.v
theories/M_Connections.v
theories/S_Connections.v
theories/P_Connections.v
theories/T_Connections.v
theories/M_Color.v
theories/P_Color.v
theories/T_Color.v
theories/M_Text.v
theories/P_Text.v
theories/T_Text.v
theories/M_FPMA.v
theories/S_FPMA.v
theories/P_Poly.v
theories/P_FPMA.v
theories/P_FPMAWrite.v
theories/P_RoundTrip.v
theories/T_FPMA.v
theories/M_VTK.v
theories/P_Bnd.v
theories/S_VTK.v
theories/P_VTK.v
theories/T_VTK.v
theories/P_VTK3.v
theories/T_VTK3.v
theories/Ex_VTK.v
theories/M_VTKWrite.v
theories/P_VTKWrite.v
theories/S_Tess.v
theories/P_Tess.v
theories/T_VTKWrite.v
theories/M_VTKData.v
theories/S_VTKData.v
theories/P_VTKData.v
theories/T_VTKData.v
theories/M_Signature.v
theories/P_Signature.v
theories/T_Signature.v
theories/M_Data.v
theories/T_Data.v
theories/M_Serial.v
theories/S_Serial.v
theories/P_Serial.v
theories/T_Serial.v
theories/M_Vec.v
theories/S_Vec.v
theories/P_Vec.v
theories/P_GS.v
theories/P_GS3.v
theories/T_Vec.v
theories/M_Geom.v
theories/S_Geom.v
theories/P_Geom.v
theories/P_Centers.v
theories/P_Tri.v
theories/Ex_Geom.v
theories/T_Centers.v
theories/P_Normals.v
theories/T_Normals.v
theories/S_Polygon.v
theories/P_Polygon.v
theories/P_Volume.v
theories/T_Dist.v
theories/T_Measure2.v
theories/T_Volume.v
theories/M_Traits.v
theories/S_Traits.v
theories/P_Traits.v
theories/P_Agg.v
theories/T_Traits.v
theories/T_Agg.v
theories/T_Loops.v
theories/S_Json.v
theories/M_Print.v
theories/P_JNum.v
theories/S_Print.v
theories/P_Print.v
theories/P_Print2.v
theories/P_Json.v
theories/T_Print.v
theories/M_Log.v
theories/S_Log.v
theories/P_JsonParse.v
theories/P_Log.v
theories/T_Log.v
theories/M_Files.v
theories/T_Files.v
theories/M_FilesI.v
theories/T_FilesI.v
theories/S_Solid.v
theories/P_Solid.v
theories/P_Solid2.v
theories/T_Solid.v
theories/M_Macro.v
theories/T_Macro.v
theories/M_Singleton.v
theories/T_Singleton.v
theories/M_Access.v
theories/T_Access.v
theories/M_GeomN.v
theories/S_GeomN.v
theories/P_Flat.v
theories/P_Svol.v
theories/P_GeomN.v
theories/P_Simplex.v
theories/Ex_GeomN.v
theories/T_GeomN.v
theories/S_Flux.v
theories/P_Flux.v
theories/T_Topology.v
theories/T_Flux.v
theories/T_Gauss2.v
theories/T_Gauss3.v
theories/M_Object.v
theories/P_Object.v
theories/T_Object.v
theories/S_Convex.v
theories/P_Convex.v
theories/T_Convex2.v
theories/T_ConvexVTK.v
theories/P_Convex3.v
theories/T_Convex3.v
theories/M_Chars.v
theories/M_Stream.v
theories/M_FileText.v
theories/P_Stream.v
theories/S_Stream.v
theories/P_Stream2.v
theories/S_FileText.v
theories/P_FileText.v
theories/P_FPMAText.v
theories/P_VTKText.v
theories/T_FileText.v
theories/T_VTKText.v
theories/P_Cut.v
theories/T_Cut.v
theories/P_CutVTK.v
theories/T_CutVTK.v
theories/T_Key.v
theories/S_Layout.v
theories/P_Layout.v
theories/T_Layout.v
theories/M_Round.v
theories/S_Round.v
theories/P_Round.v
theories/P_Round2.v
theories/P_Round3.v
theories/T_Round.v
theories/M_DataText.v
theories/S_DataText.v
theories/P_DataText.v
theories/P_DataText2.v
theories/T_DataText.v
theories/S_Interchange.v
theories/T_Interchange.v
theories/M_Detect.v
theories/S_Detect.v
theories/P_Detect.v
theories/T_Detect.v
theories/M_BoundSerial.v
theories/S_BoundSerial.v
theories/P_BoundSerial.v
theories/T_BoundSerial.v
theories/M_EdgeOps.v
theories/S_EdgeOps.v
theories/P_EdgeOps.v
theories/T_EdgeOps.v
theories/M_Overload.v
theories/S_Overload.v
theories/P_Overload.v
theories/T_Overload.v
theories/P_NotJson.v
theories/T_Real.v
theories/M_DataOps.v
theories/S_DataOps.v
theories/T_DataOps.v
theories/S_ConvexFile.v
theories/P_ConvexFile.v
theories/T_ConvexFile.v
theories/T_Tets.v
theories/T_ConvexText.v
theories/S_Export.v
theories/P_Export.v
theories/T_Export.v
theories/Ex_RepoTests.v
theories/Ex_RepoTests2.v
theories/Ex_RepoTests3.v
theories/S_DataCut.v
theories/P_DataCut.v
theories/P_DataCut2.v
theories/T_DataCut.v
theories/S_Custom.v
theories/T_Custom.v
theories/S_Near.v
theories/P_Near.v
theories/T_Near.v
theories/P_NearFile.v
theories/T_NearFile.v
theories/T_Numbers.v
theories/S_Shared.v
theories/P_Shared.v
theories/T_Shared.v
theories/M_Compact.v
theories/S_Compact.v
theories/P_Compact.v
theories/T_Compact.v
theories/S_Similar.v
theories/P_Similar.v
theories/T_Similar.v
theories/S_Renumber.v
theories/P_Renumber.v
theories/P_Renumber2.v
theories/T_Renumber.v
theories/P_Similar2.v
theories/T_Similar2.v
theories/M_LogPage.v
theories/S_LogPage.v
theories/P_LogPage.v
theories/T_LogPage.v
theories/T_ExportFile.v
theories/S_Gradient.v
theories/T_Gradient.v
theories/T_GradConvex.v
theories/S_Lossless.v
theories/T_Lossless.v
theories/S_Rewrite.v
theories/T_Rewrite.v
theories/T_Rewrite2.v
theories/T_Rewrite3.v
theories/T_RewriteF.v
