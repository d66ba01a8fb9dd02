-Q theories Verif
theories/Num.v
theories/NumR.v
theories/NumSF.v
theories/Colour.v
theories/Colourmap.v
theories/ColourTables.v
theories/ColourProofs.v
theories/ColourmapProofs.v
theories/SpecColour.v
theories/P_Colour.v
theories/Geometry.v
theories/Triangle.v
theories/Ray.v
theories/Bvh.v
theories/BvhProofs.v
theories/BvhOrder.v
theories/SpecGeom.v
theories/TriangleProofs.v
theories/P_Triangle.v
theories/BvhReal.v
theories/BvhReal2.v
theories/SpecBvh.v
theories/BvhQuery.v
theories/BvhExamples.v
theories/P_Bvh.v
theories/Samplers.v
theories/Material.v
theories/SpecOptics.v
theories/MaterialProofs.v
theories/P_Material.v
theories/Sphere.v
theories/SpecMesh.v
theories/SphereProofs.v
theories/Scene.v
theories/SpecScene.v
theories/SceneProofs.v
theories/P_Scene.v
theories/Camera.v
theories/CameraProofs.v
theories/P_Camera.v
theories/Text.v
theories/Image.v
theories/TextProofs.v
theories/ImageProofs.v
theories/SpecImage.v
theories/HeaderProofs.v
theories/P_Image.v
theories/P_FalseColour.v
theories/ColourMatrix.v
theories/SpecMatrix.v
theories/MatrixProofs.v
theories/SpecDecimal.v
theories/P_Matrix.v
theories/Radiance.v
theories/SpecRadiance.v
theories/RadianceProofs.v
theories/RadianceProofs2.v
theories/P_Radiance.v
theories/SpecImport.v
theories/P_Importers.v
theories/Importers.v
theories/Primitives.v
theories/RayTracer.v
theories/TracerProofs.v
theories/TracerSafe.v
theories/TracerScenes.v
theories/TracerCorridor.v
theories/TracerRefute.v
theories/P_Frame.v
theories/TracerSky.v
theories/TracerLone.v
theories/TracerLights.v
theories/P_Tracer.v
theories/P_Lights.v
theories/TracerAux.v
theories/Render.v
theories/RenderProofs.v
theories/SFBridge.v
theories/NumSF32.v
theories/P_Render.v
theories/P_Samplers.v
theories/P_Density.v
theories/Perez.v
theories/TrigBounds.v
theories/P_Sky.v
theories/Daylight.v
theories/DaylightProofs.v
theories/P_Daylight.v
theories/DaylightReal.v
theories/DaylightLone.v
theories/P_Daylight2.v
theories/P_Glossy.v
theories/Tools.v
theories/SpecTools.v
theories/ToolsProofs.v
theories/P_Tools.v
theories/P_Tools2.v
theories/SpecTracer.v
theories/P_Radiance_Sum.v
theories/SpecLighting.v
theories/LightingProofs.v
theories/P_Linear.v
theories/SpecDaylight.v
theories/P_Daylight_Sum.v
theories/SpecDraws.v
theories/P_Draws.v
theories/P_Radiant.v
theories/P_Smooth.v
theories/P_Sunlight.v
theories/P_Specular.v
theories/TracerSun.v
theories/P_Sunlit.v
theories/P_Aim.v
theories/Calculus.v
theories/SpecMean.v
theories/P_Unbiased.v
theories/P_FalseTool.v
theories/FloatOps.v
theories/BvhFloat.v
theories/P_Float.v
theories/TracerAny.v
theories/P_FloatTrace.v
theories/P_Order.v
theories/P_Motion.v
theories/P_Expected.v
theories/P_Append.v
theories/P_Exact.v
theories/P_Scale.v
theories/P_Resave.v
theories/P_Between.v
theories/P_More.v
theories/P_Reverse.v
theories/FloatRound.v
theories/P_FloatImage.v
theories/P_Text.v
theories/P_Shade.v
theories/FloatError.v
theories/P_FloatHit.v
theories/P_Leak.v
theories/P_FloatUnit.v
theories/FloatBoxes.v
theories/FloatSlab.v
theories/P_FloatQuery.v
theories/P_FloatDir.v
theories/P_FloatCamera.v
theories/P_FloatRefract.v
theories/P_Handles.v
theories/P_FloatPixel.v
theories/P_FloatScale.v
theories/P_Life.v
theories/Mixed.v
theories/Single.v
theories/P_Single.v
theories/P_Single2.v
theories/P_Split.v
theories/P_Defaults.v
theories/P_SingleTri.v
theories/P_FloatFresnel.v
theories/P_FloatInf.v
theories/P_FloatFalse.v
theories/P_FloatSight.v
theories/Num64.v
theories/P_FloatLight.v
theories/P_SingleMatte.v
